(* What is promised of leaving an event loop. *)

From Coq Require Import List Arith Bool.
From Verif Require Import LoopExitModel.
Import ListNotations.

Definition alive_at (s : st) (i : nat) : Prop := exists t, nth_error (tasks s) i = Some t /\ alive t = true.
Definition done_at (s : st) (i : nat) : Prop := exists t, nth_error (tasks s) i = Some t /\ alive t = false.
(** The task was cancelled. *)
Definition asked_at (s : st) (i : nat) : Prop := exists t, nth_error (tasks s) i = Some t /\ asked t = true.

(** submit() has returned; the job is over. *)
Definition submitted (s : st) (j : nat) : Prop := exists x, nth_error (jobs s) j = Some x /\ stg x = Returned.
Definition over (s : st) (j : nat) : Prop := exists x, nth_error (jobs s) j = Some x /\ finished x = true.

(** What leaving does by itself. *)
Definition own (a : label) : bool := match a with Result | Join | Cancel | Wake | StopLoop => true | _ => false end.
Definition is_tick (a : label) : bool := match a with Tick => true | _ => false end.
Definition is_error (a : label) : bool := match a with Error => true | _ => false end.
Definition how_many (f : label -> bool) (l : list label) : nat := length (filter f l).
