(* C65: two-dimensional views of arrays. *)

From Coq Require Import List Bool Arith ZArith Lia.
From Verif Require Import Dict ArrayModel ArraySpec ArrayProofs DimsProps WindowProps.
Import ListNotations.
Local Open Scope nat_scope.

Lemma insert_remove (idx : list nat) k : k < length idx -> insert_nth k (nth k idx 0) (remove_nth k idx) = idx.
Proof. revert k. induction idx as [|i idx IH]; intros [|k] Hk; simpl in *; try lia; [reflexivity|]. f_equal. apply IH. lia. Qed.

Lemma in_range_remove sh idx k : in_range sh idx -> in_range (remove_nth k sh) (remove_nth k idx).
Proof.
  intros Hr. revert k. induction Hr as [|i n idx sh Hlt Hr IH]; intros [|k]; simpl; [constructor|constructor|assumption|].
  constructor; [assumption|]. apply IH.
Qed.

Lemma prod_remove sh k : k < length sh -> nth k sh 0 * prod (remove_nth k sh) = prod sh.
Proof. revert k. induction sh as [|n sh IH]; intros [|k] Hk; simpl in *; try lia. rewrite <- (IH k) by lia. lia. Qed.

(** The view has the chosen axis first, and element idx of the array at row idx_k, the other positions
    in row-major order. *)
Theorem C65_as2d {A} (a : arr A) (z : Z) (k : nat) :
  2 <= ndim a -> norm_axis (ndim a) z = Some k ->
  exists r, as2d a z = Some r /\ shape r = [size_at k a; prod (remove_nth k (shape a))] /\
    forall idx, in_range (shape a) idx ->
      elt r [nth k idx 0; ravel (remove_nth k (shape a)) (remove_nth k idx)] = elt a idx.
Proof.
  intros Hn Hk. destruct (norm_axis_Some _ _ _ Hk) as [Hkn _].
  unfold as2d. assert (Ha : (match shape a with [n] => Arr [n; 1] (fun idx => elt a (firstn 1 idx)) | _ => a end) = a).
  { unfold ndim in Hn. destruct (shape a) as [|n [|m sh]] eqn:Hs; simpl in Hn; [lia|lia|reflexivity]. }
  rewrite Ha. rewrite Hk. cbv zeta. unfold reshape.
  replace (Nat.eqb _ _) with true.
  2:{ symmetry. apply Nat.eqb_eq. simpl. lia. }
  eexists. split; [reflexivity|]. split; [reflexivity|]. intros idx Hi. cbn [elt].
  assert (Hl : length idx = ndim a) by (apply in_range_length; assumption).
  assert (Hr : in_range (shape (move_first a k)) (nth k idx 0 :: remove_nth k idx)).
  { unfold move_first. cbn [shape]. constructor; [apply in_range_nth; assumption|]. apply in_range_remove. assumption. }
  replace (ravel [size_at k a; prod (remove_nth k (shape a))] [nth k idx 0; ravel (remove_nth k (shape a)) (remove_nth k idx)])
    with (ravel (shape (move_first a k)) (nth k idx 0 :: remove_nth k idx)) by (simpl; lia).
  rewrite unravel_ravel by assumption. simpl. rewrite insert_remove by lia. reflexivity.
Qed.

(** A one-dimensional array becomes one column. *)
Theorem C65_as2d_vector {A} (a : arr A) n : shape a = [n] ->
  exists r, as2d a 0 = Some r /\ shape r = [n; 1] /\ forall i, i < n -> elt r [i; 0] = elt a [i].
Proof.
  intros Hs. unfold as2d. rewrite Hs. simpl. eexists. unfold reshape. simpl. rewrite !Nat.mul_1_r, Nat.eqb_refl.
  split; [reflexivity|]. split; [reflexivity|]. intros i Hi. cbn [elt]. replace (ravel [n; 1] [i; 0]) with i by (simpl; lia). unfold move_first. cbn [shape elt remove_nth size_at nth unravel fold_right insert_nth firstn]. rewrite !Nat.mul_1_r. change (elt a [(i + (0 + 0)) / 1] = elt a [i]). rewrite Nat.div_1_r, !Nat.add_0_r. reflexivity.
Qed.

(** shape2d tells the shape of the view, for axes counted from the start. *)
Theorem C65_shape2d_partial {A} (a : arr A) k r : k < ndim a ->
  as2d a (Z.of_nat k) = Some r -> exists n m, shape2d a (Z.of_nat k) = Some (n, m) /\ shape r = [n; m].
Proof.
  intros Hk Hr. unfold shape2d. rewrite norm_axis_of_nat by assumption.
  assert (E : map snd (filter (fun p => negb (Z.eqb (Z.of_nat (fst p)) (Z.of_nat k))) (combine (seq 0 (ndim a)) (shape a))) = remove_nth k (shape a))
    by (apply (filter_index (shape a) k 0)).
  rewrite E. do 2 eexists. split; [reflexivity|].
  destruct (Nat.le_gt_cases 2 (ndim a)) as [H2|H2].
  - destruct (C65_as2d a (Z.of_nat k) k H2 (norm_axis_of_nat _ _ Hk)) as [r' [Hr' [Hsh _]]]. congruence.
  - unfold ndim in *. destruct (shape a) as [|n [|? ?]] eqn:Hs; simpl in *; [lia| |lia]. assert (k = 0) by lia. subst k.
    destruct (C65_as2d_vector a n Hs) as [r' [Hr' [Hsh _]]]. simpl in Hr. unfold size_at. rewrite Hs. simpl. congruence.
Qed.

(** What is written into the view is written into the array: afterwards the array's view is what the
    user made of it. *)
Theorem C65_view2d_writes_back {A} (a : arr A) (k : nat) (v : arr A) :
  2 <= ndim a -> k < ndim a -> shape v = [size_at k a; prod (remove_nth k (shape a))] ->
  exists b, write_back v (shape a) k = Some b /\ shape b = shape a /\
    forall idx, in_range (shape a) idx -> elt b idx = elt v [nth k idx 0; ravel (remove_nth k (shape a)) (remove_nth k idx)].
Proof.
  intros Hn Hk Hv. unfold write_back, reshape. rewrite Hv.
  replace (Nat.eqb _ _) with true by (symmetry; apply Nat.eqb_eq; unfold size_at; simpl; lia).
  eexists. split; [reflexivity|]. split; [reflexivity|]. intros idx Hi. cbn [elt]. f_equal.
  pose proof (in_range_remove _ _ k Hi) as Hir. pose proof (ravel_lt _ _ Hir) as Hlt.
  cbn [ravel unravel fold_right]. rewrite Nat.mul_1_r, Nat.div_1_r. rewrite Nat.div_add_l by lia. rewrite (Nat.div_small _ _ Hlt).
  rewrite Nat.add_0_r. f_equal. rewrite Nat.add_comm, Nat.mod_add by lia. rewrite Nat.mod_small by assumption. reflexivity.
Qed.

(** A view that was not touched leaves the array as it was. *)
Theorem C65_view2d_round_trip {A} (a : arr A) (k : nat) r :
  2 <= ndim a -> k < ndim a -> as2d a (Z.of_nat k) = Some r ->
  exists b, write_back r (shape a) k = Some b /\ same b a.
Proof.
  intros Hn Hk Hr. destruct (C65_as2d a (Z.of_nat k) k Hn (norm_axis_of_nat _ _ Hk)) as [r' [Hr' [Hsh He]]].
  assert (r' = r) by congruence. subst r'. destruct (C65_view2d_writes_back a k r Hn Hk Hsh) as [b [Hb [Hbs Hbe]]].
  exists b. split; [assumption|]. split; [assumption|]. intros idx Hi. rewrite Hbs in Hi. rewrite Hbe by assumption. apply He. assumption.
Qed.

(** Finding: for an axis counted from the end, shape2d multiplies in the axis itself. *)
Theorem C65_shape2d_from_the_end_refuted {A} (f : list nat -> A) :
  exists r, as2d (Arr [2; 3] f) (-1) = Some r /\ shape r = [3; 2] /\ shape2d (Arr [2; 3] f) (-1) = Some (3, 6).
Proof. eexists. split; [reflexivity|]. split; reflexivity. Qed.

(** Finding: the last axis of a vector is its only axis, but the view from it is a row. *)
Theorem C65_vector_from_the_end_refuted {A} (f : list nat -> A) :
  exists r0 r1, as2d (Arr [5] f) 0 = Some r0 /\ as2d (Arr [5] f) (-1) = Some r1 /\ shape r0 = [5; 1] /\ shape r1 = [1; 5].
Proof. do 2 eexists. split; [reflexivity|]. split; [reflexivity|]. split; reflexivity. Qed.

Print Assumptions C65_as2d.
Print Assumptions C65_as2d_vector.
Print Assumptions C65_shape2d_partial.
Print Assumptions C65_view2d_writes_back.
Print Assumptions C65_view2d_round_trip.
Print Assumptions C65_shape2d_from_the_end_refuted.
Print Assumptions C65_vector_from_the_end_refuted.

Example C65_case :
  let a := Arr [2; 3; 2] (fun idx => 100 * nth 0 idx 0 + 10 * nth 1 idx 0 + nth 2 idx 0) in
  option_map (fun r => (shape r, map (fun i => map (fun m => elt r [i; m]) [0; 1; 2; 3]) [0; 1; 2])) (as2d a 1)
  = Some ([3; 4], [[0; 1; 100; 101]; [10; 11; 110; 111]; [20; 21; 120; 121]]) /\ shape2d a 1 = Some (3, 4).
Proof. split; vm_compute; reflexivity. Qed.
