(** What C97 is about. *)
From Coq Require Import List Arith Bool.
From Verif Require Import LeaseModel.
Import ListNotations.

Definition history (es : list event) (s : state) : Prop := steps start es = Some s.

(** The messages that arrived, in order. *)
Definition arrived (es : list event) : list note := flat_map (fun e => match e with Arrive m => [m] | _ => [] end) es.

(** The message of a block has been taken and has not been released. *)
Definition holding (s : state) (j : nat) (m : note) : Prop := In (j, m) (takes s) /\ ~ In j (releases s).

(** A block was given up because of a time-out, on being entered or left. *)
Definition timed_out (s : state) (j : nat) : Prop :=
  nth_error (outcomes s) j = Some NotEntered \/ exists m, nth_error (outcomes s) j = Some (NotLeft m).

Definition no_timeouts (es : list event) : Prop := ~ In TimeOut es.

(** What happens without new messages, blocks, time-outs and collections. *)
Definition goes_on (e : event) : bool :=
  match e with Loop | Run _ _ | Deliver _ _ | Return | GiveUp => true | _ => false end.
(** What the loop and the garbage collector do by themselves. *)
Definition cleans (e : event) : bool := match e with Loop | Collect _ => true | _ => false end.
