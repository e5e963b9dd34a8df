(* What the event log should contain, read off the history of operations. *)

From Coq Require Import List Arith.
From Verif Require Import Dict EventLogModel.
Import ListNotations.

Section Spec.
Context {A : Type}.

(** The contents appended, in order. *)
Definition appended (ops : list (log_op A)) : list A :=
  flat_map (fun op => match op with Append a => [a] | _ => [] end) ops.

(** They are numbered 1, 2, 3, ... *)
Definition numbered (l : list A) : list (event A) := combine (seq 1 (length l)) l.

(** The last [n] elements of a list. *)
Definition lastn {B : Type} (n : nat) (l : list B) : list B := skipn (length l - n) l.

(** The state after a history of operations on a new log. *)
Definition after_ops (limit : nat) (ops : list (log_op A)) : log A := log_run (new_log limit) ops.

(** The stream of a subscriber: what was written to it, and what is waiting. *)
Definition written (L : log A) (id : nat) : list (event A) :=
  match get id (l_subs L) with Some s => q_out s | None => [] end.
Definition waiting (L : log A) (id : nat) : list (event A) :=
  match get id (l_subs L) with Some s => q_queue s | None => [] end.

(** Numbers strictly increase. *)
Fixpoint increasing (l : list (event A)) : Prop :=
  match l with
  | [] => True
  | e :: r => (forall e', In e' r -> fst e < fst e') /\ increasing r
  end.

(** [id] subscribed once in the history and stayed. *)
Definition stays (id : nat) (ops : list (log_op A)) : Prop :=
  forall op, In op ops -> op <> Unsubscribe id /\ forall n, op <> Subscribe id n.

(** The events a subscriber is due: those retained and asked for when it
    subscribed (the queue holds the most recent ones), then all later ones. *)
Definition due (limit : nat) (before : list (log_op A)) (after : nat) (later : list (log_op A))
  : list (event A) :=
  lastn queue_cap
    (filter (fun e => after <? fst e)
            (lastn limit (numbered (appended before)))) ++
  skipn (length (appended before)) (numbered (appended (before ++ later))).

End Spec.
