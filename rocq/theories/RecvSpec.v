(** What C77 is about. *)
From Coq Require Import List Arith Bool.
From Verif Require Import SpinSpec RecvModel.
Import ListNotations.

Definition history (es : list event) (s : state) : Prop := steps start es = Some s.

(** The messages that arrived, and the messages the calls returned, both in order. *)
Definition arrived (es : list event) : list note := flat_map (fun e => match e with Arrive m => [m] | _ => [] end) es.
Definition returned (s : state) : list note := flat_map (fun o => match o with Some m => [m] | None => [] end) (outcomes s).

Definition no_timeouts (es : list event) : Prop := ~ In TimeOut es.

(** Every call that timed out was cancelled before it took a message. *)
Definition cancelled_in_time (s : state) : Prop :=
  forall j, nth_error (outcomes s) j = Some None -> task_of s j = TCancelled.

(** What happens without new messages, calls and time-outs. *)
Definition goes_on (e : event) : bool := match e with Loop | Run _ | Deliver _ | Return | GiveUp => true | _ => false end.
