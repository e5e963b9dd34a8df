(* C54: names of dimensions stay with their dimensions. *)

From Coq Require Import List Bool Arith ZArith QArith Lia Permutation.
From Verif Require Import Dict ArrayModel ArraySpec ArrayProofs.
Import ListNotations.
Local Open Scope nat_scope.

Section Dims.
Context {A D U V T K : Type} `{Dec D} `{Dec K}.
Variables (unit0 : U) (key0 : K).
Notation aarr := (aa A D U V T K).

Lemma made (d : arr A) ds (axs : list (D * axis D U V)) (t : T) (k : K) r : make d ds axs t k = Some r -> well_formed r.
Proof. intros Hm. apply make_Some in Hm. destruct Hm as [H1 [H2 ->]]. split; assumption. Qed.

(** Whatever is returned is well formed. *)
Theorem C54_results_are_well_formed :
  (forall (a r : aarr) ixs, isel unit0 a ixs = Some r -> well_formed r) /\
  (forall (a r : aarr) ixs, sel unit0 a ixs = Some r -> well_formed r) /\
  (forall l dn x (r : aarr), concat_aa key0 l dn x = Some r -> well_formed r) /\
  (forall (a : aarr) z l r, iter_over_axis a z = Some l -> In r l -> well_formed r) /\
  (forall (a r : aarr) order, transpose_aa a order = Some r -> well_formed r) /\
  (forall (a r : aarr) m, well_formed a -> modify m a = Some r -> well_formed r) /\
  (forall d c z fs t0 time_ dname sec attrs0 l (r : aarr),
     array_chunker key0 time_ dname sec attrs0 d c z fs t0 = Some l -> In r l -> well_formed r).
Proof.
  assert (Hisel : forall (a r : aarr) ixs, isel unit0 a ixs = Some r -> well_formed r).
  { intros a r ixs. unfold isel. destruct (isel_loop _ _ _ _ _) as [[? ?]|]; [|discriminate]. apply made. }
  split; [assumption|]. split.
  { intros a r ixs. unfold sel. destruct (sel_loop a ixs); [|discriminate]. apply Hisel. }
  split.
  { intros [|a0 rest] dn x r; [discriminate|]. unfold concat_aa. destruct (forallb _ rest); [|discriminate]. cbv zeta.
    destruct (match x with Some x0 => _ | None => _ end) as [nx|]; [|discriminate]. destruct (index_of _ _).
    - destruct (concatenate _ _); [|discriminate]. apply made.
    - destruct (stack _); [|discriminate]. apply made. }
  split.
  { intros a z l r. unfold iter_over_axis. destruct (norm_axis _ _); [|discriminate]. destruct (norm_axis _ _); [|discriminate].
    destruct (nth_error _ _); [|discriminate]. cbv zeta. intros Hs Hin. apply sequence_Some in Hs.
    apply (in_map Some) in Hin. rewrite <- Hs in Hin. apply in_map_iff in Hin. destruct Hin as [i [Hi _]]. eapply made; eassumption. }
  split.
  { intros a r order. unfold transpose_aa. cbv zeta. destruct (sequence _); [|discriminate]. destruct (sequence _); [|discriminate].
    destruct (transpose _ _); [|discriminate]. apply made. }
  split.
  { intros a r [m|] Hw; [|simpl; congruence]. unfold modify. cbv zeta. destruct (map fst _); [apply made|].
    destruct (squeeze _ _); [|discriminate]. apply made. }
  { intros d c z fs t0 time_ dname sec attrs0 l r. unfold array_chunker. destruct (norm_axis _ _); [|discriminate].
    destruct (Z.eqb c 0); [discriminate|]. destruct (Qeq_bool fs 0); [discriminate|]. cbv zeta. destruct (_ <=? 0)%Z; [discriminate|].
    intros Hs Hin. apply sequence_Some in Hs. apply (in_map Some) in Hin. rewrite <- Hs in Hin. apply in_map_iff in Hin.
    destruct Hin as [i [Hi _]]. destruct (slice_along_axis _ _ _); [|discriminate]. eapply made; eassumption. }
Qed.

(** ** transpose *)

Lemma position_nth (ds : list D) idx d i k : NoDup ds -> position ds idx d i -> nth_error ds k = Some d -> nth k idx 0 = i.
Proof.
  intros Hn [k' [H1 H2]] Hk. assert (k' = k). { apply (proj1 (NoDup_nth_error ds) Hn); [apply nth_error_Some; congruence|congruence]. }
  subst. apply nth_error_nth with (d := 0) in H2. assumption.
Qed.

Lemma perm_facts (perm : list nat) n : length perm = n -> (forall k, k < n -> In k perm) -> NoDup perm /\ forall k, In k perm -> k < n.
Proof.
  intros Hl Hin. assert (Hp : NoDup perm).
  { apply (NoDup_incl_NoDup (seq_NoDup n 0)); [rewrite seq_length; lia|]. intros k Hk. apply in_seq in Hk. apply Hin. lia. }
  split; [assumption|]. intros k Hk.
  assert (Hi : incl perm (seq 0 n)). { apply (NoDup_length_incl (seq_NoDup n 0)); [rewrite seq_length; lia|]. intros x Hx. apply in_seq in Hx. apply Hin. lia. }
  apply Hi in Hk. apply in_seq in Hk. lia.
Qed.

Lemma find_combine (idx perm : list nat) j k : NoDup perm -> length idx = length perm -> nth_error perm j = Some k ->
  find (fun p => Nat.eqb (snd p) k) (combine idx perm) = Some (nth j idx 0, k).
Proof.
  revert perm j. induction idx as [|i idx IH]; intros [|p perm] j Hn Hl Hj; try discriminate; [destruct j; discriminate|].
  simpl. inversion Hn as [|? ? Hni Hn']; subst. destruct j as [|j]; simpl in Hj.
  - injection Hj as ->. rewrite Nat.eqb_refl. reflexivity.
  - destruct (Nat.eqb_spec p k) as [->|Hne]; [exfalso; apply Hni; eapply nth_error_In; eassumption|]. apply IH; auto.
Qed.

Definition transpose_order (a : aarr) (order : option (list Z)) : list Z :=
  match order with None => map Z.of_nat (rev (seq 0 (ndim (data a)))) | Some l => l end.

(** The elements, the sizes and the axes go with the names. *)
Theorem C54_transpose (a r : aarr) order : well_formed a -> transpose_aa a order = Some r ->
  Permutation (dims r) (dims a) /\ axes r = axes a /\ attrs r = attrs a /\ key r = key a /\
  (forall j k dn, nth_error (dims r) j = Some dn -> nth_error (dims a) k = Some dn -> size_at j (data r) = size_at k (data a)) /\
  (forall idx src, in_range (shape (data r)) idx -> length src = ndim (data a) ->
     (forall dn i, position (dims r) idx dn i -> position (dims a) src dn i) ->
     elt (data r) idx = elt (data a) src) /\
  (* in the order asked for *)
  (forall j z, nth_error (transpose_order a order) j = Some z ->
     exists k, norm_axis (ndim (data a)) z = Some k /\ nth_error (dims r) j = nth_error (dims a) k).
Proof.
  intros [Hlen Hnd]. unfold transpose_aa. cbv zeta. fold (transpose_order a order).
  destruct (sequence (map (norm_axis (length (dims a))) (transpose_order a order))) as [ks|] eqn:Hks; [|discriminate].
  destruct (sequence (map (nth_error (dims a)) ks)) as [nd|] eqn:Hnds; [|discriminate].
  destruct (transpose (data a) ks) as [d|] eqn:Ht; [|discriminate].
  intros Hm. apply make_Some in Hm. destruct Hm as [Hl2 [Hnd2 ->]]. simpl.
  apply sequence_Some in Hks. apply sequence_Some in Hnds.
  unfold transpose in Ht. destruct (eqd (length ks) (ndim (data a))) eqn:Hlk; [|discriminate]. apply (proj1 (eqd_true _ _)) in Hlk.
  destruct (forallb _ _) eqn:Hall; [|discriminate]. simpl in Ht.
  assert (Hin : forall k, k < ndim (data a) -> In k ks).
  { intros k Hk. rewrite forallb_forall in Hall. specialize (Hall k). rewrite in_seq in Hall. specialize (Hall (conj (Nat.le_0_l _) Hk)).
    apply existsb_exists in Hall. destruct Hall as [x [Hx He]]. apply Nat.eqb_eq in He. subst. assumption. }
  clear Hall. destruct (perm_facts ks _ Hlk Hin) as [Hnk Hlt]. injection Ht as <-. cbn [shape elt].
  assert (Hj : forall j dn, nth_error nd j = Some dn <-> exists k, nth_error ks j = Some k /\ nth_error (dims a) k = Some dn).
  { intros j dn. assert (E : nth_error (map (nth_error (dims a)) ks) j = nth_error (map Some nd) j) by congruence.
    rewrite !nth_error_map in E. destruct (nth_error ks j) as [k|], (nth_error nd j) as [x|]; simpl in E; try discriminate.
    - split; [intros [= <-]; exists k; split; [reflexivity|congruence]|]. intros [k' [[= <-] Hk']]. congruence.
    - split; [discriminate|]. intros [k [[=] _]]. }
  split.
  { apply NoDup_Permutation; [assumption|assumption|]. intros x. split; intros Hx; apply In_nth_error in Hx; destruct Hx as [j Hx].
    - apply Hj in Hx. destruct Hx as [k [_ Hx]]. eapply nth_error_In; eassumption.
    - assert (j < ndim (data a)) by (rewrite <- Hlen; apply nth_error_Some; congruence).
      destruct (In_nth_error _ _ (Hin j H1)) as [i Hi]. apply nth_error_In with (n := i). apply Hj. exists j. auto. }
  split; [reflexivity|]. split; [reflexivity|]. split; [reflexivity|]. split.
  { intros j k dn H1 H2. apply Hj in H1. destruct H1 as [k' [H1 H3]].
    assert (k' = k). { apply (proj1 (NoDup_nth_error (dims a)) Hnd); [apply nth_error_Some; congruence|congruence]. } subst k'.
    unfold size_at. cbn [shape]. apply nth_error_nth. rewrite nth_error_map, H1. reflexivity. }
  split.
  { intros idx src Hi Hs Hpos. f_equal. apply (list_ext _ _ 0); [rewrite map_length, seq_length; auto|].
    intros k Hk. rewrite map_length, seq_length in Hk.
    assert (Hli : length idx = length ks). { apply in_range_length in Hi. rewrite map_length in Hi. assumption. }
    destruct (In_nth_error _ _ (Hin k Hk)) as [j Hjk].
    match goal with |- nth k (map ?f _) 0 = _ => rewrite (nth_indep _ 0 (f 0)) by (rewrite map_length, seq_length; assumption); rewrite (map_nth f) end.
    rewrite seq_nth by assumption. simpl. rewrite (find_combine idx ks j k Hnk Hli Hjk). simpl.
    destruct (nth_error (dims a) k) as [dn|] eqn:Hdk; [|apply nth_error_None in Hdk; lia].
    symmetry. apply (position_nth (dims a) src dn); [assumption| |assumption]. apply Hpos. exists j. split; [apply Hj; exists k; auto|].
    apply nth_error_nth'. rewrite Hli. apply nth_error_Some. congruence. }
  { intros j z Hz. assert (E : nth_error (map (norm_axis (length (dims a))) (transpose_order a order)) j = nth_error (map Some ks) j) by congruence.
    rewrite !nth_error_map, Hz in E. simpl in E. destruct (nth_error ks j) as [k|] eqn:Hkj; simpl in E; [|discriminate]. injection E as E.
    exists k. rewrite <- Hlen. split; [assumption|].
    assert (k < length (dims a)) by (rewrite Hlen; apply Hlt; eapply nth_error_In; eassumption).
    destruct (nth_error (dims a) k) as [dn|] eqn:Hd; [apply Hj; exists k; auto|]. apply nth_error_None in Hd. lia. }
Qed.

(** It is served whenever the order names every axis once. *)
Theorem C54_transpose_serves (a : aarr) (order : list Z) ks : well_formed a ->
  map (norm_axis (ndim (data a))) order = map Some ks -> NoDup ks -> length ks = ndim (data a) ->
  exists r, transpose_aa a (Some order) = Some r.
Proof.
  intros [Hlen Hnd] Hks Hn Hl. unfold transpose_aa. cbv zeta. rewrite Hlen.
  replace (sequence _) with (Some ks) by (symmetry; apply sequence_Some; assumption).
  assert (Hlt : forall k, In k ks -> k < ndim (data a)).
  { intros k Hk. apply (in_map Some) in Hk. rewrite <- Hks in Hk. apply in_map_iff in Hk. destruct Hk as [z [Hz _]]. apply norm_axis_Some in Hz. lia. }
  assert (Hall : forall k, k < ndim (data a) -> In k ks).
  { assert (Hi : incl (seq 0 (ndim (data a))) ks).
    { apply NoDup_length_incl; [assumption|rewrite seq_length; lia|]. intros k Hk. apply in_seq. specialize (Hlt k Hk). lia. }
    intros k Hk. apply Hi. apply in_seq. lia. }
  destruct (dims a) as [|d0 ds] eqn:Hd.
  { simpl in Hlen. destruct ks; [|simpl in Hl; lia]. simpl. unfold transpose. rewrite <- Hlen. simpl. 
    eexists. apply make_ok; [reflexivity|constructor]. }
  rewrite <- Hd in *.
  set (nd := map (fun k => nth k (dims a) d0) ks).
  replace (sequence _) with (Some nd).
  2:{ symmetry. apply sequence_Some. unfold nd. rewrite map_map. apply map_ext_in. intros k Hk. apply nth_error_nth'. rewrite Hlen. auto. }
  unfold transpose. replace (eqd _ _) with true by (symmetry; apply eqd_true; assumption).
  replace (forallb _ _) with true.
  2:{ symmetry. apply forallb_forall. intros k Hk. apply in_seq in Hk. apply existsb_exists. exists k. split; [apply Hall; lia|apply Nat.eqb_refl]. }
  simpl. eexists. apply make_ok.
  - unfold ndim. simpl. unfold nd. rewrite !map_length. reflexivity.
  - unfold nd. clear -Hn Hnd Hlt Hlen. induction Hn as [|k ks Hk Hn IH]; simpl; constructor.
    + intros Hin. apply in_map_iff in Hin. destruct Hin as [k2 [He Hin]]. apply (proj1 (NoDup_nth (dims a) d0) Hnd) in He; [congruence| |].
      * rewrite Hlen. apply Hlt. right. assumption.
      * rewrite Hlen. apply Hlt. left. reflexivity.
    + apply IH. intros; apply Hlt; right; assumption.
Qed.

(** ** iter_over_axis *)

Lemma filter_index {X} (l : list X) k s :
  map snd (filter (fun p => negb (Z.eqb (Z.of_nat (fst p)) (Z.of_nat (s + k)))) (combine (seq s (length l)) l)) = remove_nth k l.
Proof.
  revert k s. induction l as [|x l IH]; intros k s; [destruct k; reflexivity|].
  simpl. destruct k as [|k].
  - rewrite Nat.add_0_r, Z.eqb_refl. simpl. clear IH.
    assert (Hg : forall (l : list X) s2, s < s2 -> map snd (filter (fun p => negb (Z.eqb (Z.of_nat (fst p)) (Z.of_nat s))) (combine (seq s2 (length l)) l)) = l).
    { induction l0 as [|y l0 IH]; intros s2 Hs; [reflexivity|]. simpl. destruct (Z.eqb_spec (Z.of_nat s2) (Z.of_nat s)); [lia|]. simpl. f_equal. apply IH. lia. }
    apply Hg. lia.
  - destruct (Z.eqb_spec (Z.of_nat s) (Z.of_nat (s + S k))); [lia|]. simpl. f_equal. rewrite <- (IH k (S s)). replace (S s + k) with (s + S k) by lia. reflexivity.
Qed.

Lemma nth_error_remove {X} (l : list X) k j : nth_error (remove_nth k l) j = nth_error l (if j <? k then j else S j).
Proof.
  revert k j. induction l as [|x l IH]; intros k j.
  - replace (remove_nth k (@nil X)) with (@nil X) by (destruct k; reflexivity).
    transitivity (@None X); [destruct j; reflexivity|]. destruct (if j <? k then j else S j); reflexivity.
  - destruct k as [|k]; [destruct j; reflexivity|]. destruct j as [|j]; [reflexivity|].
    cbn [remove_nth nth_error]. rewrite IH. change (S j <? S k) with (j <? k). destruct (j <? k); reflexivity.
Qed.

Lemma length_remove {X} (l : list X) k : k < length l -> length (remove_nth k l) = length l - 1.
Proof. revert k. induction l as [|x l IH]; intros [|k] Hk; simpl in *; try lia. rewrite IH by lia. lia. Qed.

Lemma NoDup_remove_nth {X} (l : list X) k : NoDup l -> NoDup (remove_nth k l).
Proof.
  intros Hn. revert k. induction Hn as [|x l Hx Hn IH]; intros [|k]; simpl; try constructor; auto.
  intros Hin. apply Hx. clear -Hin. revert k Hin. induction l as [|y l IH]; intros [|k] Hin; simpl in *; auto. destruct Hin; eauto.
Qed.

Lemma nth_insert (idx : list nat) k i j : k <= length idx ->
  nth j (insert_nth k i idx) 0 = if j <? k then nth j idx 0 else if Nat.eqb j k then i else nth (j - 1) idx 0.
Proof.
  revert k j. induction idx as [|x idx IH]; intros [|k] [|j] Hk; simpl in *; auto; try lia.
  - destruct j; reflexivity.
  - rewrite Nat.sub_0_r. reflexivity.
  - rewrite IH by lia. change (S j <? S k) with (j <? k). destruct (j <? k) eqn:Hjk; [reflexivity|]. destruct (Nat.eqb_spec j k); [reflexivity|].
    apply Nat.ltb_ge in Hjk. rewrite Nat.sub_0_r. destruct j; [lia|]. simpl. rewrite Nat.sub_0_r. reflexivity.
Qed.

Lemma length_insert (idx : list nat) k i : length (insert_nth k i idx) = S (length idx).
Proof. revert k. induction idx as [|x idx IH]; intros [|k]; simpl; auto. Qed.

(** Iterating over a dimension gives one array for each position, in order, without this dimension;
    every other dimension keeps its name, size, axis and elements. *)
Theorem C54_iterate (a : aarr) k dn : well_formed a -> nth_error (dims a) k = Some dn ->
  exists l, iter_over_axis a (Z.of_nat k) = Some l /\ length l = size_at k (data a) /\
  forall i r, nth_error l i = Some r ->
    (forall d, In d (dims r) <-> In d (dims a) /\ d <> dn) /\ attrs r = attrs a /\ key r = key a /\
    (forall d, get d (axes r) = if dec d dn then None else get d (axes a)) /\
    (forall j k' d, nth_error (dims r) j = Some d -> nth_error (dims a) k' = Some d -> size_at j (data r) = size_at k' (data a)) /\
    (forall idx src, in_range (shape (data r)) idx -> length src = ndim (data a) ->
       (forall d p, position (dims r) idx d p -> position (dims a) src d p) -> position (dims a) src dn i ->
       elt (data r) idx = elt (data a) src).
Proof.
  intros [Hlen Hnd] Hk. assert (Hkl : k < length (dims a)) by (apply nth_error_Some; congruence).
  set (axs := filter (fun p => if dec (fst p) dn then false else true) (axes a)).
  set (it := fun i => AA (pick (data a) i k) (remove_nth k (dims a)) axs (attrs a) (key a) : aarr).
  exists (map it (seq 0 (size_at k (data a)))). split; [|split].
  - unfold iter_over_axis. rewrite <- Hlen, norm_axis_of_nat by assumption. rewrite Hk. cbv zeta.
    apply sequence_Some. rewrite map_map. apply map_ext. intros i.
    rewrite (filter_index (dims a) k 0 : map snd (filter (fun p => negb (Z.eqb (Z.of_nat (fst p)) (Z.of_nat k))) _) = _). apply make_ok.
    + unfold ndim, pick. simpl. rewrite !length_remove by (unfold ndim in *; lia). unfold ndim in Hlen. lia.
    + apply NoDup_remove_nth. assumption.
  - rewrite map_length, seq_length. reflexivity.
  - intros i r Hr. assert (Hi : i < size_at k (data a)).
    { assert (Hi : i < length (map it (seq 0 (size_at k (data a))))) by (apply nth_error_Some; congruence). rewrite map_length, seq_length in Hi. assumption. }
    assert (r = it i). { rewrite (map_nth_error it i _ (d := i)) in Hr; [congruence|]. rewrite nth_error_nth' with (d := 0) by (rewrite seq_length; assumption). rewrite seq_nth by assumption. reflexivity. }
    subst r. clear Hr. simpl.
    assert (Hdim : forall j d, nth_error (remove_nth k (dims a)) j = Some d <-> exists k', k' <> k /\ nth_error (dims a) k' = Some d /\ j = (if k' <? k then k' else k' - 1)).
    { intros j d. rewrite nth_error_remove. split.
      - intros Hj. destruct (Nat.ltb_spec j k).
        + exists j. split; [lia|]. split; [assumption|]. destruct (Nat.ltb_spec j k); lia.
        + exists (S j). split; [lia|]. split; [assumption|]. destruct (Nat.ltb_spec (S j) k); lia.
      - intros [k' [Hne [Hd ->]]]. destruct (Nat.ltb_spec k' k).
        + destruct (Nat.ltb_spec k' k); [assumption|lia].
        + destruct (Nat.ltb_spec (k' - 1) k); [lia|]. replace (S (k' - 1)) with k' by lia. assumption. }
    split.
    { intros d. split.
      - intros Hin. apply In_nth_error in Hin. destruct Hin as [j Hj]. apply Hdim in Hj. destruct Hj as [k' [Hne [Hd _]]].
        split; [eapply nth_error_In; eassumption|]. intros ->. apply Hne. apply (proj1 (NoDup_nth_error (dims a)) Hnd); [apply nth_error_Some; congruence|congruence].
      - intros [Hin Hne]. apply In_nth_error in Hin. destruct Hin as [k' Hk']. apply nth_error_In with (n := if k' <? k then k' else k' - 1).
        apply Hdim. exists k'. split; [congruence|]. auto. }
    split; [reflexivity|]. split; [reflexivity|]. split.
    { intros d. unfold axs. induction (axes a) as [|[x y] l IH]; cbn [filter get fst snd]; [destruct (dec d dn); reflexivity|].
      destruct (dec x dn) as [->|Hx].
      - rewrite IH. destruct (dec d dn); reflexivity.
      - cbn [get fst snd]. destruct (dec d x) as [->|Hdx]; [destruct (dec x dn); [contradiction|reflexivity]|]. exact IH. }
    split.
    { intros j k' d H1 H2. apply Hdim in H1. destruct H1 as [k2 [Hne [H1 ->]]].
      assert (k2 = k'). { apply (proj1 (NoDup_nth_error (dims a)) Hnd); [apply nth_error_Some; congruence|congruence]. } subst k2.
      unfold size_at. simpl. assert (Hk'l : k' < length (shape (data a))) by (unfold ndim in Hlen; rewrite <- Hlen; apply nth_error_Some; congruence).
      apply nth_error_nth. rewrite nth_error_remove. destruct (Nat.ltb_spec k' k).
      - destruct (Nat.ltb_spec k' k); [|lia]. apply nth_error_nth'. assumption.
      - destruct (Nat.ltb_spec (k' - 1) k); [lia|]. replace (S (k' - 1)) with k' by lia. apply nth_error_nth'. assumption. }
    { intros idx src Hidx Hs Hpos Hdn. f_equal.
      assert (Hli : length idx = ndim (data a) - 1). { apply in_range_length in Hidx. rewrite Hidx. simpl. rewrite length_remove; [reflexivity|]. unfold ndim in Hlen. lia. }
      apply (list_ext _ _ 0); [rewrite length_insert; lia|]. intros j Hj. rewrite length_insert in Hj.
      rewrite nth_insert by lia. destruct (nth_error (dims a) j) as [d|] eqn:Hd; [|apply nth_error_None in Hd; lia].
      destruct (Nat.eqb_spec j k) as [->|Hne].
      - rewrite Nat.ltb_irrefl. symmetry. apply (position_nth (dims a) src dn); assumption.
      - assert (E : nth j src 0 = nth (if j <? k then j else j - 1) idx 0).
        { apply (position_nth (dims a) src d); [assumption| |assumption]. apply Hpos. exists (if j <? k then j else j - 1). split.
          - apply Hdim. exists j. auto.
          - apply nth_error_nth'. destruct (Nat.ltb_spec j k); lia. }
        rewrite E. destruct (j <? k); reflexivity. }
Qed.

(** Finding: counting the axis from the end, which the other operations accept, fails here. *)
Theorem C54_iterate_from_the_end_refuted (a : aarr) : well_formed a -> ndim (data a) <> 0 ->
  size_at (ndim (data a) - 1) (data a) <> 0 -> iter_over_axis a (-1) = None.
Proof.
  intros [Hlen Hnd] Hne Hs. unfold iter_over_axis. rewrite Hlen.
  assert (Hna : norm_axis (ndim (data a)) (-1) = Some (ndim (data a) - 1)).
  { unfold norm_axis. destruct (Z.ltb_spec (-1) (- Z.of_nat (ndim (data a)))); [lia|]. destruct (Z.leb_spec (Z.of_nat (ndim (data a))) (-1)); [lia|]. cbn [orb]. change (-1 <? 0)%Z with true. cbn match. f_equal. lia. }
  rewrite Hna. destruct (nth_error (dims a) (ndim (data a) - 1)) as [dn|]; [|reflexivity]. cbv zeta.
  destruct (size_at (ndim (data a) - 1) (data a)) as [|n]; [contradiction|]. simpl seq. cbn [map sequence].
  match goal with |- match ?x with _ => _ end = None => assert (Hx : x = None); [|rewrite Hx; reflexivity] end.
  match goal with |- ?x = None => destruct x as [r|] eqn:Hx; [|reflexivity] end.
  apply make_Some in Hx. destruct Hx as [Hx _]. exfalso.
  assert (Hf : forall (l : list (nat * D)), filter (fun p => negb (Z.eqb (Z.of_nat (fst p)) (-1))) l = l).
  { induction l as [|[x y] l IH]; [reflexivity|]. simpl. destruct (Z.eqb_spec (Z.of_nat x) (-1)); [lia|]. simpl. f_equal. assumption. }
  rewrite Hf, map_length, combine_length, seq_length in Hx. 
  rewrite Hlen, Nat.min_id in Hx. change (ndim (pick (data a) 0 (ndim (data a) - 1))) with (length (remove_nth (ndim (data a) - 1) (shape (data a)))) in Hx.
  rewrite length_remove in Hx by (fold (ndim (data a)); lia). fold (ndim (data a)) in Hx. lia.
Qed.
End Dims.

Print Assumptions C54_results_are_well_formed.
Print Assumptions C54_transpose.
Print Assumptions C54_transpose_serves.
Print Assumptions C54_iterate.
Print Assumptions C54_iterate_from_the_end_refuted.
