(* What a benchmark's network, figures and report should be. *)

From Coq Require Import List Arith ZArith QArith Bool Permutation Sorted.
From Verif Require Import Dict PerfModel.
Import ListNotations.
Local Open Scope nat_scope.

(** A walk along connections, from its first node to its last. *)
Fixpoint walk (es : list (node * node)) (l : list node) : Prop :=
  match l with
  | a :: ((b :: _) as r) => In (a, b) es /\ walk es r
  | [_] => True
  | [] => False
  end.

(** At least half of the values are at most [v], and at least half at least [v]. *)
Definition halves {A : Type} (le : A -> A -> Prop) (v : A) (l : list A) : Prop :=
  exists below above, (forall x, In x below -> le x v) /\ (forall x, In x above -> le v x) /\
    (exists rest, Permutation l (below ++ rest)) /\
    (exists rest, Permutation l (above ++ rest)) /\
    length l <= 2 * length below /\ length l <= 2 * length above.

(** The median: half-way between the two middle values (which are one if the number of
    values is odd) in increasing order. *)
Definition is_median (v : Q) (l : list Q) : Prop :=
  l <> [] /\ exists s, Permutation l s /\ StronglySorted Qle s /\
    (v == (nth ((length l - 1) / 2) s 0 + nth (length l / 2) s 0) / 2)%Q.

Definition qtotal (l : list Q) : Q := fold_right Qplus 0%Q l.
Definition ztotal (l : list Z) : Z := fold_right Z.add 0%Z l.

(** The gaps between successive values. *)
Definition gaps (l : list Z) : list Z := map (fun p => (fst p - snd p)%Z) (combine (tl l) l).

(** A list of samples spans from [lo] to [hi] when they were sent. *)
Definition spans (xs : list sample) (lo hi : Z) : Prop :=
  In lo (map sent xs) /\ In hi (map sent xs) /\
  forall z, In z (map sent xs) -> (lo <= z <= hi)%Z.

(** The counters from [lo] to [hi] that are not among [cs]. *)
Definition missing (lo hi : nat) (cs : list nat) : list nat :=
  filter (fun k => negb (existsb (Nat.eqb k) cs)) (seq lo (hi + 1 - lo)).

(** A log with one block of entries per repeat, and the values logged for [p] in a block. *)
Definition log_of (blocks : list (list (params * Q))) : list line :=
  flat_map (fun b => Info :: map (fun e => Entry (fst e) (snd e)) b) blocks.
Definition values (p : params) (b : list (params * Q)) : list Q :=
  map snd (filter (fun e => eqd (fst e) p) b).
(** One list of values per repeat in which [p] was tested at all. *)
Definition per_repeat (p : params) (blocks : list (list (params * Q))) : list (list Q) :=
  filter (fun l => match l with [] => false | _ => true end) (map (values p) blocks).

(** The mean. *)
Definition is_mean (m : Q) (l : list Q) : Prop :=
  l <> [] /\ (m * inject_Z (Z.of_nat (length l)) == qtotal l)%Q.

(** How often a value is in a list. *)
Definition times {A : Type} `{Dec A} (x : A) (l : list A) : nat := length (filter (eqd x) l).

(** Some logged values without the tests they belong to. *)
Definition tests_of (b : list (params * Q)) : list params := map fst b.

(** The nodes messages start from: they send, and nothing is sent to them. *)
Definition origin (es : list (node * node)) (x : node) : Prop :=
  (exists y, In (x, y) es) /\ ~ exists y, In (y, x) es.
