(* C55: sliding windows; C65: two-dimensional views. *)

From Coq Require Import List Bool Arith ZArith QArith Lia.
From Verif Require Import Dict ArrayModel ArraySpec ArrayProofs.
Import ListNotations.
Local Open Scope nat_scope.

Notation prod := (fold_right Nat.mul 1).

(** ** Positions in row-major order *)

Lemma ravel_lt sh : forall idx, in_range sh idx -> ravel sh idx < prod sh.
Proof.
  induction sh as [|n sh IH]; intros idx Hi; inversion Hi as [|i n' idx' sh' Hlt Hi']; subst; simpl; [lia|].
  specialize (IH idx' Hi'). nia.
Qed.

Lemma unravel_ravel sh : forall idx, in_range sh idx -> unravel sh (ravel sh idx) = idx.
Proof.
  induction sh as [|n sh IH]; intros idx Hi; inversion Hi as [|i n' idx' sh' Hlt Hi']; subst; simpl; [reflexivity|].
  pose proof (ravel_lt sh idx' Hi') as Hr. f_equal.
  - rewrite Nat.div_add_l by lia. rewrite Nat.div_small by assumption. lia.
  - rewrite Nat.add_comm, Nat.mod_add by lia. rewrite Nat.mod_small by assumption. apply IH. assumption.
Qed.

Lemma prod_app l1 l2 : prod (l1 ++ l2) = prod l1 * prod l2.
Proof. induction l1 as [|x l1 IH]; simpl; [lia|]. rewrite IH. lia. Qed.

Lemma ravel_split pre n m post : forall p i j q, length p = length pre ->
  ravel (pre ++ n :: m :: post) (p ++ i :: j :: q) = ravel (pre ++ (n * m) :: post) (p ++ (i * m + j) :: q).
Proof.
  induction pre as [|x pre IH]; intros [|y p] i j q Hl; simpl in Hl; try discriminate.
  - simpl. nia.
  - simpl. rewrite (IH p i j q) by lia. rewrite !prod_app. simpl. nia.
Qed.

Lemma upd_split {X} (l : list X) k v : k < length l -> upd k v l = firstn k l ++ v :: skipn (S k) l.
Proof. revert k. induction l as [|x l IH]; intros [|k] Hk; simpl in *; try lia; [reflexivity|]. f_equal. apply IH. lia. Qed.

Lemma upd_mid {X} (p : list X) v w q : upd (length p) v (p ++ w :: q) = p ++ v :: q.
Proof. induction p as [|x p IH]; simpl; [reflexivity|]. f_equal. assumption. Qed.

Lemma nth_mid {X} (p : list X) v q d : nth (length p) (p ++ v :: q) d = v.
Proof. induction p as [|x p IH]; simpl; auto. Qed.

Lemma upd_mid_eq {X} (p : list X) k v w q : length p = k -> upd k v (p ++ w :: q) = p ++ v :: q.
Proof. intros <-. apply upd_mid. Qed.

Lemma nth_mid_eq {X} (p : list X) k v q d : length p = k -> nth k (p ++ v :: q) d = v.
Proof. intros <-. apply nth_mid. Qed.

Lemma in_range_app sh1 sh2 i1 i2 : length i1 = length sh1 -> (in_range (sh1 ++ sh2) (i1 ++ i2) <-> in_range sh1 i1 /\ in_range sh2 i2).
Proof.
  intros Hl. split.
  - revert i1 Hl. induction sh1 as [|s sh1 IH]; intros [|i i1] Hl Hr; simpl in *; try discriminate; [split; [constructor|assumption]|].
    inversion Hr; subst. destruct (IH i1 ltac:(lia) H4). split; [constructor; assumption|assumption].
  - intros [H1 H2]. apply Forall2_app; assumption.
Qed.

Lemma in_range_cons n sh i idx : in_range (n :: sh) (i :: idx) -> i < n /\ in_range sh idx.
Proof. intros Hr. inversion Hr; subst. split; assumption. Qed.

Lemma shape_split {A} (a : arr A) k : k < ndim a -> shape a = firstn k (shape a) ++ size_at k a :: skipn (S k) (shape a).
Proof. intros Hk. rewrite <- upd_split by exact Hk. unfold size_at. rewrite upd_same. reflexivity. Qed.

(** ** Strides *)

Lemma dot_app p st1 q st2 : length p = length st1 -> dot (p ++ q) (st1 ++ st2) = (dot p st1 + dot q st2)%Z.
Proof. revert st1. induction p as [|i p IH]; intros [|s st1] Hl; simpl in *; try discriminate; [reflexivity|]. rewrite IH by lia. lia. Qed.

Lemma count_spec (nw s i : nat) : 1 <= s -> i < (match nw with 0 => 0 | S m => S (m / s) end) <-> i * s < nw.
Proof.
  intros Hs. destruct nw as [|m]; [lia|]. pose proof (Nat.div_mod m s ltac:(lia)). pose proof (Nat.mod_upper_bound m s ltac:(lia)). split; intros; nia.
Qed.

Lemma split_nth_error {X} (l : list X) k x : nth_error l k = Some x -> l = firstn k l ++ x :: skipn (S k) l /\ length (firstn k l) = k.
Proof.
  intros Hk. assert (Hl : k < length l) by (apply nth_error_Some; congruence). split; [|apply firstn_length_le; lia].
  rewrite <- upd_split by assumption. apply nth_error_nth with (d := x) in Hk. rewrite <- Hk. symmetry. apply upd_same.
Qed.

Theorem C55_strided_windows {A} (s : strided A) w k step :
  length (strides s) = length (s_shape s) -> k < length (s_shape s) -> 1 <= step ->
  w <= size_at k (as_arr s) + 1 ->
  exists r, sliding_win_strided s w k (Z.of_nat step) = Some r /\ windows (as_arr s) w k step r.
Proof.
  intros Hls Hk Hs Hw. unfold sliding_win_strided.
  destruct (nth_error (s_shape s) k) as [len|] eqn:Hlen; [|apply nth_error_None in Hlen; lia].
  destruct (nth_error (strides s) k) as [st|] eqn:Hst; [|apply nth_error_None in Hst; lia].
  assert (Hsz : size_at k (as_arr s) = len) by (unfold size_at; simpl; apply nth_error_nth; assumption).
  rewrite Hsz in Hw. cbv zeta. destruct (Z.ltb_spec (Z.of_nat len - (Z.of_nat w - 1)) 0); [lia|].
  set (nw := Z.to_nat (Z.of_nat len - (Z.of_nat w - 1))). assert (Hnw : nw = len + 1 - w) by lia.
  destruct (split_nth_error _ _ _ Hlen) as [Esh Lsh]. destruct (split_nth_error _ _ _ Hst) as [Est Lst].
  set (big := as_strided s (firstn k (s_shape s) ++ [nw; w] ++ skipn (S k) (s_shape s)) (firstn k (strides s) ++ [st; st] ++ skipn (S k) (strides s))).
  assert (Hbig : forall p i j q, length p = k -> elt (as_arr big) (p ++ i :: j :: q) = elt (as_arr s) (p ++ (i + j) :: q)).
  { intros p i j q Hp. cbn [as_arr elt big as_strided memory base strides app]. f_equal. f_equal.
    assert (E : dot (p ++ (i + j) :: q) (strides s) = (dot p (firstn k (strides s)) + dot ((i + j)%nat :: q) (st :: skipn (S k) (strides s)))%Z).
    { rewrite Est at 1. apply dot_app. congruence. }
    rewrite E, dot_app by congruence. cbn [dot]. lia. }
  destruct (Z.ltb_spec 1 (Z.of_nat step)) as [H1|H1].
  - assert (Hnd : k < ndim (as_arr big)).
    { unfold ndim. simpl. rewrite app_length, Lsh. simpl. lia. }
    unfold slice_along_axis. rewrite norm_axis_of_nat by assumption.
    assert (Hsb : size_at k (as_arr big) = nw).
    { unfold size_at. simpl. apply nth_mid_eq. assumption. }
    rewrite Hsb, slice_step by lia. rewrite Nat2Z.id. eexists. split; [reflexivity|].
    set (cnt := match nw with 0 => 0 | S m => S (m / step) end). exists cnt. split; [|split].
    + unfold take. cbn [shape]. rewrite map_length, seq_length. cbn [as_arr shape as_strided s_shape big app]. rewrite upd_mid_eq by assumption. reflexivity.
    + intros i. unfold cnt. rewrite count_spec by assumption. rewrite Hsz. lia.
    + intros p i j q Hp Hr. unfold take in *. cbn [elt shape] in *. rewrite map_length, seq_length in Hr.
      cbn [as_arr shape as_strided s_shape big app] in Hr. rewrite upd_mid_eq in Hr by assumption.
      apply in_range_app in Hr; [|congruence]. destruct Hr as [_ Hr]. inversion Hr; subst.
      rewrite nth_mid, upd_mid. rewrite (nth_indep _ 0 (0 * step)) by (rewrite map_length, seq_length; assumption).
      rewrite (map_nth (fun i => i * step)), seq_nth by assumption. apply (Hbig p (i * step) j q eq_refl).
  - assert (step = 1) by lia. subst step. eexists. split; [reflexivity|]. exists nw. split; [reflexivity|]. split.
    + intros i. rewrite Hsz. lia.
    + intros p i j q Hp _. rewrite Nat.mul_1_r. apply Hbig. assumption.
Qed.

(** ** The generic version *)

Lemma flat_length (starts : list nat) w : length (flat_map (fun i => map (fun j => i + j) (seq 0 w)) starts) = length starts * w.
Proof. induction starts as [|x l IH]; simpl; [reflexivity|]. rewrite app_length, IH, map_length, seq_length. reflexivity. Qed.

Lemma flat_nth w : forall (starts : list nat) i j, i < length starts -> j < w ->
  nth (i * w + j) (flat_map (fun i => map (fun j => i + j) (seq 0 w)) starts) 0 = nth i starts 0 + j.
Proof.
  induction starts as [|x l IH]; intros i j Hi Hj; simpl in Hi; [lia|]. cbn [flat_map].
  destruct i as [|i].
  - simpl. rewrite app_nth1 by (rewrite map_length, seq_length; assumption).
    rewrite (nth_indep _ 0 (x + 0)) by (rewrite map_length, seq_length; assumption). rewrite (map_nth (fun j => x + j)), seq_nth by assumption. reflexivity.
  - rewrite app_nth2 by (rewrite map_length, seq_length; simpl; lia). rewrite map_length, seq_length.
    replace (S i * w + j - w) with (i * w + j) by (simpl; lia). rewrite IH by lia. reflexivity.
Qed.

Lemma arange_spec (n : nat) (step : nat) : 1 <= step ->
  arange_step (Z.of_nat n) (Z.of_nat step) = map (fun i => i * step) (seq 0 (match n with 0 => 0 | S m => S (m / step) end)).
Proof.
  intros Hs. unfold arange_step. destruct n as [|m]; [reflexivity|]. destruct (Z.leb_spec (Z.of_nat (S m)) 0); [lia|].
  rewrite Nat2Z.id. replace (Z.of_nat (S m) - 1)%Z with (Z.of_nat m) by lia. rewrite <- Nat2Z.inj_div.
  replace (Z.to_nat (Z.of_nat (m / step) + 1)) with (S (m / step)) by lia. reflexivity.
Qed.

Theorem C55_generic_windows {A} (zero : A) (a : arr A) w k step :
  k < ndim a -> 1 <= step -> 1 <= w -> w <= size_at k a + 1 ->
  exists r, sliding_win_generic zero a w k (Z.of_nat step) = Some r /\ windows a w k step r.
Proof.
  intros Hk Hs Hw1 Hw. unfold sliding_win_generic.
  destruct (nth_error (shape a) k) as [len|] eqn:Hlen; [|apply nth_error_None in Hlen; unfold ndim in Hk; lia].
  assert (Hsz : size_at k a = len) by (unfold size_at; apply nth_error_nth; assumption).
  rewrite Hsz in Hw. cbv zeta. destruct (Z.ltb_spec (Z.of_nat len - (Z.of_nat w - 1)) 0); [lia|].
  destruct (Nat.eqb_spec w 0); [lia|].
  replace (Z.of_nat len - (Z.of_nat w - 1))%Z with (Z.of_nat (len + 1 - w)) by lia. rewrite arange_spec by assumption.
  set (cnt := match len + 1 - w with 0 => 0 | S m => S (m / step) end).
  set (starts := map (fun i => i * step) (seq 0 cnt)). assert (Hls : length starts = cnt) by (unfold starts; rewrite map_length, seq_length; reflexivity).
  destruct (split_nth_error _ _ _ Hlen) as [Esh Lsh].
  set (pre := firstn k (shape a)) in *. set (post := skipn (S k) (shape a)) in *.
  unfold reshape. cbn [shape take]. rewrite flat_length, Hls.
  assert (Eup : upd k (cnt * w) (shape a) = pre ++ (cnt * w) :: post).
  { rewrite Esh. apply upd_mid_eq. assumption. }
  rewrite Eup. replace (Nat.eqb _ _) with true.
  2:{ symmetry. apply Nat.eqb_eq. rewrite !prod_app. simpl. lia. }
  eexists. split; [reflexivity|]. exists cnt. split; [reflexivity|]. split.
  - intros i. unfold cnt. rewrite count_spec by assumption. rewrite Hsz. lia.
  - intros p i j q Hp Hr. cbn [elt shape app] in *. rewrite ravel_split by congruence.
    apply in_range_app in Hr; [|congruence]. destruct Hr as [Hr1 Hr2]. destruct (in_range_cons _ _ _ _ Hr2) as [Hi Hr3]. destruct (in_range_cons _ _ _ _ Hr3) as [Hj Hr4].
    rewrite unravel_ravel.
    2:{ apply in_range_app; [congruence|]. split; [assumption|]. constructor; [|assumption]. nia. }
    unfold take; cbn [elt]. rewrite nth_mid_eq, upd_mid_eq by assumption. f_equal. f_equal. f_equal. rewrite flat_nth by (try assumption; congruence).
    unfold starts. rewrite (nth_indep _ 0 (0 * step)) by (rewrite map_length, seq_length; assumption).
    rewrite (map_nth (fun i => i * step)), seq_nth by assumption. reflexivity.
Qed.

(** Windows longer than the axis by two or more are refused by both. *)
Theorem C55_too_long {A} (zero : A) (s : strided A) w k step :
  size_at k (as_arr s) + 1 < w -> k < length (s_shape s) ->
  sliding_win_strided s w k step = None /\ sliding_win_generic zero (as_arr s) w k step = None.
Proof.
  intros Hw Hk. unfold sliding_win_strided, sliding_win_generic. cbn [as_arr shape].
  destruct (nth_error (s_shape s) k) as [len|] eqn:Hlen; [|split; reflexivity].
  assert (Hsz : size_at k (as_arr s) = len) by (unfold size_at; simpl; apply nth_error_nth; assumption).
  rewrite Hsz in Hw. destruct (Z.ltb_spec (Z.of_nat len - (Z.of_nat w - 1)) 0); [|lia]. split; [destruct (nth_error (strides s) k)|]; reflexivity.
Qed.

(** What [windows] says determines the array. *)
Lemma windows_unique {A} (a : arr A) w k s r1 r2 : k < ndim a -> windows a w k s r1 -> windows a w k s r2 -> same r1 r2.
Proof.
  intros Hk [c1 [S1 [C1 E1]]] [c2 [S2 [C2 E2]]].
  assert (Hc : c1 = c2).
  { destruct (Nat.lt_trichotomy c1 c2) as [Hlt|[He|Hlt]]; [|assumption|].
    - apply C2 in Hlt. apply C1 in Hlt. lia.
    - apply C1 in Hlt. apply C2 in Hlt. lia. }
  subst c2. split; [congruence|]. intros idx Hi. pose proof (in_range_length _ _ Hi) as Hl. rewrite S1 in Hl.
  assert (Hf : length (firstn k (shape a)) = k) by (apply firstn_length_le; unfold ndim in Hk; lia).
  rewrite app_length in Hl. simpl in Hl. rewrite Hf in Hl.
  assert (Hsplit : exists p i j q, idx = p ++ i :: j :: q /\ length p = k).
  { exists (firstn k idx). destruct (skipn k idx) as [|i [|j q]] eqn:Hsk.
    - assert (length (skipn k idx) = 0) by (rewrite Hsk; reflexivity). rewrite skipn_length in H. lia.
    - assert (length (skipn k idx) = 1) by (rewrite Hsk; reflexivity). rewrite skipn_length in H. lia.
    - exists i, j, q. split; [rewrite <- Hsk; symmetry; apply firstn_skipn|]. apply firstn_length_le. lia. }
  destruct Hsplit as [p [i [j [q [-> Hp]]]]]. rewrite E1 by assumption. rewrite E2; [reflexivity|assumption|]. rewrite S2, <- S1. assumption.
Qed.

(** Both ways of computing them agree, for windows of at least one sample. *)
Theorem C55_versions_agree_partial {A} (zero : A) (s : strided A) w k step r1 r2 :
  length (strides s) = length (s_shape s) -> k < length (s_shape s) -> 1 <= step -> 1 <= w ->
  sliding_win_strided s w k (Z.of_nat step) = Some r1 ->
  sliding_win_generic zero (as_arr s) w k (Z.of_nat step) = Some r2 -> same r1 r2.
Proof.
  intros Hls Hk Hs Hw H1 H2. destruct (Nat.le_gt_cases w (size_at k (as_arr s) + 1)) as [Hle|Hgt].
  - destruct (C55_strided_windows s w k step Hls Hk Hs Hle) as [r1' [E1 W1]].
    destruct (C55_generic_windows zero (as_arr s) w k step Hk Hs Hw Hle) as [r2' [E2 W2]].
    assert (r1' = r1) by congruence. assert (r2' = r2) by congruence. subst. apply (windows_unique (as_arr s) w k step r1 r2 Hk W1 W2).
  - destruct (C55_too_long zero s w k (Z.of_nat step) Hgt Hk) as [E _]. congruence.
Qed.

(** Finding: for windows of length zero one version obeys the step and the other ignores it. *)
Theorem C55_empty_windows_refuted {A} (x : A) :
  exists (s : strided A) r1 r2, sliding_win_strided s 0 0 2 = Some r1 /\ sliding_win_generic x (as_arr s) 0 0 2 = Some r2 /\
    shape r1 = [3; 0] /\ shape r2 = [5; 0].
Proof.
  exists (Strided (fun _ => x) 0%Z [4] [8%Z]). do 2 eexists. split; [reflexivity|]. split; [reflexivity|]. split; reflexivity.
Qed.

Print Assumptions C55_strided_windows.
Print Assumptions C55_generic_windows.
Print Assumptions C55_too_long.
Print Assumptions C55_versions_agree_partial.
Print Assumptions C55_empty_windows_refuted.

(** Two rows of seven, stored column after column; windows of three, every two. *)
Definition buffer : strided Z := Strided (fun z => z) 100%Z [2; 7] [8; 16]%Z.

Example C55_case :
  option_map (fun r => (shape r, map (fun i => map (fun j => elt r [1; i; j]) [0; 1; 2]) [0; 1; 2])) (sliding_win_strided buffer 3 1 2)
  = Some ([2; 3; 3], [[108; 124; 140]; [140; 156; 172]; [172; 188; 204]]%Z) /\
  option_map (fun r => (shape r, map (fun i => map (fun j => elt r [1; i; j]) [0; 1; 2]) [0; 1; 2])) (sliding_win_generic 0%Z (as_arr buffer) 3 1 2)
  = Some ([2; 3; 3], [[108; 124; 140]; [140; 156; 172]; [172; 188; 204]]%Z).
Proof. split; vm_compute; reflexivity. Qed.
