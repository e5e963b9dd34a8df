(* What is asked of the calls of broadcast() on one publisher, and what is promised. *)

From Coq Require Import List Arith Bool.
From Verif Require Import TransportModel OverlapModel.
Import ListNotations.

Section Spec.
Context {Obj : Type}.
Context (nbuf : nat) (chans : list nat) (kind : nat -> transport).
Notation st := (@st Obj).
Notation label := (@label Obj).

(** A call has passed the gate and is not over: it waits for a buffer, or it writes. *)
Definition inside (p : pc) : Prop := match p with AtBuffer _ _ _ | AtDrain _ _ _ _ _ => True | _ => False end.
Definition writing (p : pc) : Prop := match p with AtDrain _ _ _ _ _ => True | _ => False end.
Definition call_at (s : st) (i : nat) (p : pc) : Prop := exists x, nth_error (calls s) i = Some x /\ at_ x = p.

(** Nobody else is inside. *)
Definition alone (s : st) (i : nat) : Prop := forall j p, call_at s j p -> inside p -> j = i.

(** What a caller has to see to: no call passes the gate while another is inside, and a call that is writing is not
    cancelled.  (So, for example, if each call is made after the one before has returned, or is made under a lock, with
    no time-out; or if there is a free buffer whenever a call is made and no drain() suspends.) *)
Definition orderly_step (s : st) (a : label) : Prop :=
  match a with
  | Start i | Wake i => alone s i
  | Cancel i => forall p, call_at s i p -> ~ writing p
  | _ => True
  end.
Fixpoint orderly (s : st) (l : list label) : Prop :=
  match l with
  | [] => True
  | a :: l => orderly_step s a /\ forall s', step nbuf chans kind s a = Some s' -> orderly s' l
  end.

(** The calls in [order] are those that published, in this order. *)
Definition object (s : st) (i : nat) (o : Obj) : Prop := exists x, nth_error (calls s) i = Some x /\ obj x = o.
Definition publications (s : st) (order : list (nat * Obj)) : Prop :=
  NoDup (map fst order) /\
  (forall i o, In (i, o) order -> object s i o /\ exists p, call_at s i p /\ (p = Returned \/ writing p)) /\
  (forall i p, call_at s i p -> p = Returned \/ writing p -> In i (map fst order)).

(** A channel has nothing left to read, to handle or to acknowledge. *)
Definition at_rest (x : @chan Obj) : Prop := wire x = [] /\ queue x = [] /\ held x = None.
End Spec.
