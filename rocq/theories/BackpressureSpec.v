(** Who holds what, straight from the history (most recent operation first). *)
From Coq Require Import List Arith.
From Verif Require Import BackpressureModel.
Import ListNotations.

Fixpoint held (n : nat) (h : list bp_op) (u i : nat) : Prop :=
  match h with
  | [] => False
  | Lease v j :: h' => (u = v /\ i = j /\ i < n) \/ held n h' u i
  | Free v None :: h' => u <> v /\ held n h' u i
  | Free v (Some j) :: h' => ~ (u = v /\ i = j) /\ held n h' u i
  end.
