(* What the theorems about labelled arrays say, in terms of elements and indices. *)

From Coq Require Import List Arith ZArith QArith Sorted.
From Verif Require Import ArrayModel.
Import ListNotations.
Local Open Scope nat_scope.

(** An index of an array of this shape. *)
Definition in_range (sh idx : list nat) : Prop := Forall2 lt idx sh.

(** The same array: same shape, same elements. *)
Definition same {A} (a b : arr A) : Prop :=
  shape a = shape b /\ forall idx, in_range (shape a) idx -> elt a idx = elt b idx.

(** The slices [start:s1], [s1:s2], ... *)
Fixpoint slices (start : nat) (stops : list nat) : list pyslice :=
  match stops with
  | [] => []
  | e :: rest => Slice (Some (Z.of_nat start)) (Some (Z.of_nat e)) None :: slices e rest
  end.

(** Cut points of an axis of length n, leaving no piece empty. *)
Definition cuts (stops : list nat) (n : nat) : Prop :=
  StronglySorted lt (0 :: stops) /\ last (0 :: stops) 0 = n.

(** A labelled array is well formed: one name for each dimension of the data, no name twice. *)
Definition well_formed {A D U V T K} (a : aa A D U V T K) : Prop :=
  length (dims a) = ndim (data a) /\ NoDup (dims a).

(** In index [idx], dimension [d] of those named [ds] has position [i]. *)
Definition position {D} (ds : list D) (idx : list nat) (d : D) (i : nat) : Prop :=
  exists k, nth_error ds k = Some d /\ nth_error idx k = Some i.

(** [r] holds the windows of [w] samples along axis [k] of [a], one every [s] samples: as many as fit,
    as a new axis before axis [k]. *)
Definition windows {A} (a : arr A) (w k s : nat) (r : arr A) : Prop :=
  exists count,
    shape r = firstn k (shape a) ++ count :: w :: skipn (S k) (shape a) /\
    (forall i, i < count <-> i * s + w <= size_at k a) /\
    (forall p i j q, length p = k -> in_range (shape r) (p ++ i :: j :: q) ->
       elt r (p ++ i :: j :: q) = elt a (p ++ (i * s + j) :: q)).
