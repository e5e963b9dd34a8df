(* C54, continued: renaming and dropping dimensions with ModifyAxis. *)

From Coq Require Import List Bool Arith ZArith QArith Lia.
From Verif Require Import Dict ArrayModel ArraySpec ArrayProofs DimsProps.
Import ListNotations.
Local Open Scope nat_scope.

Section Modify.
Context {A D U V T K : Type} `{Dec D} `{Dec K}.
Notation aarr := (aa A D U V T K).

Definition is_none (x : option D) : bool := match x with None => true | Some _ => false end.
Definition kept (nd : list (option D)) : list D := flat_map (fun x => match x with Some d => [d] | None => [] end) nd.
Definition dropped (nd : list (option D)) : list nat :=
  map fst (filter (fun p => match snd p with None => true | Some _ => false end) (combine (seq 0 (length nd)) nd)).

Fixpoint keep {X} (nd : list (option D)) (l : list X) : list X :=
  match nd, l with
  | Some _ :: nd, x :: l => x :: keep nd l
  | None :: nd, _ :: l => keep nd l
  | _, _ => []
  end.

Fixpoint fill (nd : list (option D)) (idx : list nat) : list nat :=
  match nd with
  | [] => []
  | None :: nd => 0 :: fill nd idx
  | Some _ :: nd => match idx with i :: idx => i :: fill nd idx | [] => 0 :: fill nd [] end
  end.

Lemma dropped_spec nd k : k < length nd -> existsb (Nat.eqb k) (dropped nd) = is_none (nth k nd None).
Proof.
  assert (Hg : forall nd s k, k < length nd ->
     existsb (Nat.eqb (s + k)) (map fst (filter (fun p => match snd p with None => true | Some _ => false end) (combine (seq s (length nd)) nd))) = is_none (nth k nd None)).
  { clear. induction nd as [|x nd IH]; intros s k Hk; simpl in Hk; [lia|].
    assert (Hout : forall s2, s2 <= s -> existsb (Nat.eqb s2) (map fst (filter (fun p => match snd p with None => true | Some _ => false end) (combine (seq (S s) (length nd)) nd))) = false).
    { intros s2 Hs. destruct (existsb _ _) eqn:He; [|reflexivity]. apply existsb_exists in He. destruct He as [y [Hy Hey]]. apply Nat.eqb_eq in Hey. subst y.
      apply in_map_iff in Hy. destruct Hy as [[p q] [Hp Hy]]. apply filter_In in Hy. destruct Hy as [Hy _]. apply in_combine_l in Hy. apply in_seq in Hy. simpl in Hp. lia. }
    cbn [length seq combine filter snd]. destruct k as [|k].
    - rewrite Nat.add_0_r. destruct x as [d|]; cbn [map fst existsb nth is_none].
      + apply Hout. lia.
      + rewrite Nat.eqb_refl. reflexivity.
    - replace (s + S k) with (S s + k) by lia. destruct x as [d|]; cbn [map fst existsb nth].
      + apply IH. lia.
      + destruct (Nat.eqb_spec (S s + k) s); [lia|]. cbn [orb]. apply IH. lia. }
  intros Hk. apply (Hg nd 0 k Hk).
Qed.

Lemma drop_at_keep {X} ks : forall nd n (l : list X), (forall i, i < length nd -> existsb (Nat.eqb (n + i)) ks = is_none (nth i nd None)) ->
  length l = length nd -> drop_at ks n l = keep nd l.
Proof.
  induction nd as [|x nd IH]; intros n [|y l] Hks Hl; simpl in Hl; try discriminate; [reflexivity|].
  cbn [drop_at keep]. pose proof (Hks 0 ltac:(simpl; lia)) as H0'. rewrite Nat.add_0_r in H0'. rewrite H0'. cbn [nth].
  assert (IH' : drop_at ks (S n) l = keep nd l).
  { apply IH; [|lia]. intros i Hi. replace (S n + i) with (n + S i) by lia. apply (Hks (S i)). simpl. lia. }
  destruct x; cbn [is_none]; rewrite IH'; reflexivity.
Qed.

Lemma fill_at_fill ks : forall nd n idx, (forall i, i < length nd -> existsb (Nat.eqb (n + i)) ks = is_none (nth i nd None)) ->
  fill_at ks n (length nd) idx = fill nd idx.
Proof.
  induction nd as [|x nd IH]; intros n idx Hks; [reflexivity|].
  cbn [fill_at fill length]. pose proof (Hks 0 ltac:(simpl; lia)) as H0'. rewrite Nat.add_0_r in H0'. rewrite H0'. cbn [nth].
  assert (IH' : forall idx, fill_at ks (S n) (length nd) idx = fill nd idx).
  { intros idx'. apply IH. intros i Hi. replace (S n + i) with (n + S i) by lia. apply (Hks (S i)). simpl. lia. }
  destruct x; cbn [is_none]; [destruct idx|]; rewrite IH'; reflexivity.
Qed.

Lemma keep_all {X} nd : dropped nd = [] -> forall l : list X, length l = length nd -> keep nd l = l.
Proof.
  intros Hd. assert (Hall : forall k, k < length nd -> is_none (nth k nd None) = false).
  { intros k Hk. rewrite <- dropped_spec, Hd by assumption. reflexivity. }
  clear Hd. induction nd as [|x nd IH]; intros [|y l] Hl; simpl in Hl; try discriminate; [reflexivity|].
  destruct x as [d|]; [|specialize (Hall 0 ltac:(simpl; lia)); discriminate]. cbn [keep]. f_equal. apply IH; [|lia]. intros k Hk. apply (Hall (S k)). simpl. lia.
Qed.

Lemma fill_all nd : dropped nd = [] -> forall idx, length idx = length nd -> fill nd idx = idx.
Proof.
  intros Hd. assert (Hall : forall k, k < length nd -> is_none (nth k nd None) = false).
  { intros k Hk. rewrite <- dropped_spec, Hd by assumption. reflexivity. }
  clear Hd. induction nd as [|x nd IH]; intros [|y l] Hl; simpl in Hl; try discriminate; [reflexivity|].
  destruct x as [d|]; [|specialize (Hall 0 ltac:(simpl; lia)); discriminate]. cbn [fill]. f_equal. apply IH; [|lia]. intros k Hk. apply (Hall (S k)). simpl. lia.
Qed.

Lemma length_fill nd : forall idx, length (fill nd idx) = length nd.
Proof. induction nd as [|[d|] nd IH]; intros [|i idx]; simpl; auto. Qed.

Lemma length_keep {X} nd : forall l : list X, length l = length nd -> length (keep nd l) = length (kept nd).
Proof.
  induction nd as [|[d|] nd IH]; intros [|y l] Hl; simpl in Hl; try discriminate; auto.
  - simpl. f_equal. apply IH. lia.
  - simpl. apply IH. lia.
Qed.

Lemma keep_at {X} nd : forall (l : list X) k d, length l = length nd -> nth_error nd k = Some (Some d) ->
  exists j, nth_error (kept nd) j = Some d /\ nth_error (keep nd l) j = nth_error l k.
Proof.
  induction nd as [|[x|] nd IH]; intros [|y l] k d Hl Hk; simpl in Hl; try discriminate; [destruct k; discriminate| |].
  - destruct k as [|k]; simpl in Hk.
    + injection Hk as ->. exists 0. split; reflexivity.
    + destruct (IH l k d ltac:(lia) Hk) as [j [H1 H2]]. exists (S j). split; assumption.
  - destruct k as [|k]; simpl in Hk; [discriminate|]. destruct (IH l k d ltac:(lia) Hk) as [j [H1 H2]]. exists j. split; assumption.
Qed.

Lemma fill_pos nd : forall idx k d, length idx = length (kept nd) -> nth_error nd k = Some (Some d) ->
  position (kept nd) idx d (nth k (fill nd idx) 0).
Proof.
  induction nd as [|[x|] nd IH]; intros idx k d Hl Hk; [destruct k; discriminate| |].
  - destruct idx as [|i idx]; simpl in Hl; [discriminate|]. destruct k as [|k]; simpl in Hk.
    + injection Hk as ->. exists 0. split; reflexivity.
    + injection Hl as Hl. destruct (IH idx k d Hl Hk) as [j [H1 H2]]. exists (S j). split; assumption.
  - destruct k as [|k]; simpl in Hk; [discriminate|]. exact (IH idx k d Hl Hk).
Qed.

Lemma fill_none nd : forall idx k, nth_error nd k = Some None -> nth k (fill nd idx) 0 = 0.
Proof.
  induction nd as [|[x|] nd IH]; intros idx k Hk; [destruct k; discriminate| |].
  - destruct k as [|k]; simpl in Hk; [discriminate|]. destruct idx; simpl; apply IH; assumption.
  - destruct k as [|k]; simpl in Hk; [reflexivity|]. simpl. apply IH; assumption.
Qed.

Lemma In_kept nd d : In d (kept nd) <-> In (Some d) nd.
Proof.
  unfold kept. rewrite in_flat_map. split.
  - intros [[x|] [Hx Hd]]; [destruct Hd as [<-|[]]; assumption|destruct Hd].
  - intros Hd. exists (Some d). split; [assumption|left; reflexivity].
Qed.

Lemma kept_inj m (ds : list D) : NoDup (kept (map (renamed m) ds)) -> forall d1 d2 d', In d1 ds -> In d2 ds ->
  renamed m d1 = Some d' -> renamed m d2 = Some d' -> d1 = d2.
Proof.
  induction ds as [|x ds IH]; intros Hn d1 d2 d' H1 H2 E1 E2; [destruct H1|].
  assert (Hn' : NoDup (kept (map (renamed m) ds))).
  { simpl in Hn. destruct (renamed m x); simpl in Hn; [inversion Hn; assumption|assumption]. }
  assert (Hx : forall y, In y ds -> renamed m x = Some d' -> renamed m y = Some d' -> False).
  { intros y Hy Ex Ey. simpl in Hn. rewrite Ex in Hn. simpl in Hn. inversion Hn as [|? ? Hni _]; subst. apply Hni.
    apply In_kept. rewrite <- Ey. apply in_map. assumption. }
  destruct H1 as [<-|H1], H2 as [<-|H2]; [reflexivity|exfalso; eauto|exfalso; eauto|eauto].
Qed.

Lemma renamed_axes m (d d' : D) (l : list (D * axis D U V)) acc : renamed m d = Some d' -> NoDup (keys l) ->
  (forall x, In x (keys l) -> renamed m x = Some d' -> x = d) ->
  get d' (fold_left (fun acc p => match renamed m (fst p) with Some n => put n (snd p) acc | None => acc end) l acc) =
  match get d l with Some v => Some v | None => get d' acc end.
Proof.
  intros Hd. revert acc. induction l as [|[x y] l IH]; intros acc Hn Hin; [reflexivity|].
  inversion Hn as [|? ? Hni Hn']; subst. cbn [fold_left fst snd get]. rewrite IH; [|assumption|intros z Hz; apply Hin; right; assumption].
  destruct (dec d x) as [<-|Hne].
  - rewrite Hd. destruct (get d l) eqn:Hg; [exfalso; apply Hni; eapply get_Some_key; eassumption|]. apply get_put_eq.
  - destruct (get d l); [reflexivity|]. destruct (renamed m x) as [n|] eqn:Hx; [|reflexivity].
    apply get_put_neq. intros <-. apply Hne. symmetry. apply Hin; [left; reflexivity|assumption].
Qed.

Theorem C54_modify (a r : aarr) m : well_formed a -> modify (Some m) a = Some r ->
  attrs r = attrs a /\ key r = key a /\
  (forall d', In d' (dims r) <-> exists d, In d (dims a) /\ renamed m d = Some d') /\
  (* a dimension that is kept keeps its size; one that is dropped had length one *)
  (forall k d, nth_error (dims a) k = Some d ->
     match renamed m d with
     | Some d' => forall j, nth_error (dims r) j = Some d' -> size_at j (data r) = size_at k (data a)
     | None => size_at k (data a) = 1
     end) /\
  (* the elements go with the names *)
  (forall idx src, in_range (shape (data r)) idx -> length src = ndim (data a) ->
     (forall d i, position (dims a) src d i -> match renamed m d with Some d' => position (dims r) idx d' i | None => i = 0 end) ->
     elt (data r) idx = elt (data a) src) /\
  (* and so do the axes *)
  (NoDup (keys (axes a)) -> incl (keys (axes a)) (dims a) ->
   forall d d', In d (dims a) -> renamed m d = Some d' -> get d' (axes r) = get d (axes a)).
Proof.
  intros [Hlen Hnd]. unfold modify. cbv zeta. set (nd := map (renamed m) (dims a)).
  change (map fst _) with (dropped nd). change (flat_map _ nd) with (kept nd).
  set (axs := fold_left _ (axes a) []).
  assert (Hln : length nd = ndim (data a)) by (unfold nd; rewrite map_length; assumption).
  intros Hm.
  assert (Hr : exists d, make d (kept nd) axs (attrs a) (key a) = Some r /\ shape d = keep nd (shape (data a)) /\
     (forall idx, length idx = length (kept nd) -> elt d idx = elt (data a) (fill nd idx)) /\
     (forall k, nth_error nd k = Some None -> size_at k (data a) = 1)).
  { destruct (dropped nd) as [|k0 ks] eqn:Hdr.
    - exists (data a). split; [assumption|]. split; [symmetry; apply keep_all; [assumption|symmetry; assumption]|]. split.
      + intros idx Hi. rewrite fill_all; [reflexivity|assumption|]. rewrite Hi. rewrite <- (length_keep nd nd eq_refl). rewrite keep_all; auto.
      + intros k Hk. exfalso. assert (Hkl : k < length nd) by (apply nth_error_Some; congruence).
        pose proof (dropped_spec nd k Hkl) as He. rewrite Hdr in He. apply nth_error_nth with (d := None) in Hk. rewrite Hk in He. discriminate.
    - rewrite <- Hdr in *. destruct (squeeze (data a) (dropped nd)) as [d|] eqn:Hs; [|discriminate]. exists d. split; [assumption|].
      unfold squeeze in Hs. destruct (forallb _ (dropped nd)) eqn:Hone; [|discriminate]. injection Hs as <-. cbn [shape elt]. split.
      + apply drop_at_keep; [intros i Hi; apply dropped_spec; assumption|symmetry; assumption].
      + split.
        * intros idx _. rewrite <- Hln. rewrite (fill_at_fill (dropped nd) nd 0); [reflexivity|]. intros i Hi. apply dropped_spec; assumption.
        * intros k Hk. assert (Hkl : k < length nd) by (apply nth_error_Some; congruence).
          pose proof (dropped_spec nd k Hkl) as He. apply nth_error_nth with (d := None) in Hk. rewrite Hk in He. simpl in He.
          apply existsb_exists in He. destruct He as [x [Hx Hex]]. apply Nat.eqb_eq in Hex. subst x.
          rewrite forallb_forall in Hone. specialize (Hone k Hx). apply Nat.eqb_eq in Hone. exact Hone. }
  clear Hm. destruct Hr as [d [Hm [Hsh [Helt Hone]]]]. apply make_Some in Hm. destruct Hm as [Hl2 [Hnd2 ->]]. simpl.
  assert (Hnth : forall k, nth_error nd k = option_map (renamed m) (nth_error (dims a) k)) by (intros; unfold nd; apply nth_error_map).
  split; [reflexivity|]. split; [reflexivity|]. split.
  { intros d'. rewrite In_kept. unfold nd. rewrite in_map_iff. split; intros [x Hx]; exists x; tauto. }
  split.
  { intros k dn Hk. specialize (Hnth k). rewrite Hk in Hnth. simpl in Hnth. destruct (renamed m dn) as [d'|] eqn:Hd'.
    - intros j Hj. destruct (keep_at nd (shape (data a)) k d' (eq_sym Hln) Hnth) as [j' [H1 H2]].
      assert (j' = j). { apply (proj1 (NoDup_nth_error _) Hnd2); [apply nth_error_Some; congruence|congruence]. } subst j'.
      unfold size_at. rewrite Hsh. assert (Hk2 : k < length (shape (data a))) by (unfold ndim in Hln; rewrite <- Hln; apply nth_error_Some; congruence).
      rewrite (nth_error_nth' _ 0 Hk2) in H2. apply nth_error_nth with (d := 0) in H2. assumption.
    - apply Hone. assumption. }
  split.
  { intros idx src Hi Hs Hpos. rewrite Helt by (apply in_range_length in Hi; unfold ndim in Hl2; congruence). f_equal.
    apply (list_ext _ _ 0); [rewrite length_fill; congruence|]. intros k Hk. rewrite length_fill in Hk.
    destruct (nth_error (dims a) k) as [dn|] eqn:Hdk; [|apply nth_error_None in Hdk; lia].
    specialize (Hnth k). rewrite Hdk in Hnth. simpl in Hnth.
    specialize (Hpos dn (nth k src 0)). destruct (renamed m dn) as [d'|] eqn:Hd'.
    - assert (Hp : position (kept nd) idx d' (nth k src 0)).
      { apply Hpos. exists k. split; [assumption|]. apply nth_error_nth'. lia. }
      assert (Hli : length idx = length (kept nd)) by (apply in_range_length in Hi; unfold ndim in Hl2; congruence).
      pose proof (fill_pos nd idx k d' Hli Hnth) as Hf. destruct Hf as [j [Hj1 Hj2]].
      rewrite <- (position_nth (kept nd) idx d' (nth k src 0) j Hnd2 Hp Hj1). apply nth_error_nth with (d := 0) in Hj2. symmetry. assumption.
    - rewrite fill_none by assumption. symmetry. apply Hpos. exists k. split; [assumption|]. apply nth_error_nth'. lia. }
  { intros Hna Hinc dn d' Hin Hd'. unfold axs. rewrite (renamed_axes m dn d'); [destruct (get dn (axes a)); reflexivity|assumption|assumption|].
    intros x Hx Hx'. apply (kept_inj m (dims a) Hnd2 x dn d'); auto. }
Qed.

(** It raises exactly if two of the names kept would be the same, or if a dimension to drop does not
    have length one. *)
Theorem C54_modify_serves (a : aarr) m : well_formed a ->
  ((exists r, modify (Some m) a = Some r) <->
   (forall k1 k2 d1 d2 d', nth_error (dims a) k1 = Some d1 -> nth_error (dims a) k2 = Some d2 ->
      renamed m d1 = Some d' -> renamed m d2 = Some d' -> k1 = k2) /\
   (forall k d, nth_error (dims a) k = Some d -> renamed m d = None -> size_at k (data a) = 1)).
Proof.
  intros Hw. pose proof Hw as [Hlen Hnd]. split.
  - intros [r Hr]. split.
    + intros k1 k2 d1 d2 d' H1 H2 E1 E2. assert (d1 = d2).
      { unfold modify in Hr. cbv zeta in Hr. set (nd := map (renamed m) (dims a)) in *. change (flat_map _ nd) with (kept nd) in Hr.
        assert (Hn : NoDup (kept nd)).
        { destruct (map fst _); [apply make_Some in Hr; tauto|]. destruct (squeeze _ _); [|discriminate]. apply make_Some in Hr. tauto. }
        apply (kept_inj m (dims a) Hn d1 d2 d'); auto; eapply nth_error_In; eassumption. }
      subst. apply (proj1 (NoDup_nth_error _) Hnd); [apply nth_error_Some; congruence|congruence].
    + intros k d Hk Hd. destruct (C54_modify a r m Hw Hr) as [_ [_ [_ [Hs _]]]]. specialize (Hs k d Hk). rewrite Hd in Hs. assumption.
  - intros [Hinj Hone]. unfold modify. cbv zeta. set (nd := map (renamed m) (dims a)).
    change (map fst _) with (dropped nd). change (flat_map _ nd) with (kept nd).
    assert (Hln : length nd = ndim (data a)) by (unfold nd; rewrite map_length; assumption).
    assert (Hnk : NoDup (kept nd)).
    { unfold nd. clear -Hinj. induction (dims a) as [|x ds IH]; [constructor|]. simpl.
      assert (IH' : NoDup (kept (map (renamed m) ds))).
      { apply IH. intros k1 k2 d1 d2 d' H1 H2 E1 E2. assert (S k1 = S k2) by (eapply (Hinj (S k1) (S k2)); simpl; eassumption). congruence. }
      destruct (renamed m x) as [d'|] eqn:Hx; simpl; [|assumption]. constructor; [|assumption]. intros Hin. apply In_kept in Hin.
      apply in_map_iff in Hin. destruct Hin as [y [Hy Hin]]. apply In_nth_error in Hin. destruct Hin as [k Hk].
      assert (0 = S k); [|discriminate]. eapply (Hinj 0 (S k)); simpl; [reflexivity|eassumption|eassumption|assumption]. }
    destruct (dropped nd) as [|k0 ks] eqn:Hdr.
    + eexists. apply make_ok; [|assumption]. rewrite <- (length_keep nd nd eq_refl), keep_all; auto.
    + rewrite <- Hdr. unfold squeeze. replace (forallb _ _) with true.
      2:{ symmetry. apply forallb_forall. intros k Hk. apply Nat.eqb_eq. fold (size_at k (data a)).
          assert (Hkn : nth_error nd k = Some None).
          { unfold dropped in Hk. apply in_map_iff in Hk. destruct Hk as [[p q] [<- Hp]]. apply filter_In in Hp. destruct Hp as [Hp Hq]. simpl in Hq.
            destruct q; [discriminate|]. simpl. clear -Hp. revert Hp. assert (Hg : forall s, In (p, None) (combine (seq s (length nd)) nd) -> s <= p /\ nth_error nd (p - s) = Some None).
            { clear. induction nd as [|x nd IH]; intros s; simpl; [intros []|]. intros [[= <- ->]|Hp].
              - split; [lia|]. rewrite Nat.sub_diag. reflexivity.
              - destruct (IH (S s) Hp) as [H1 H2]. split; [lia|]. replace (p - s) with (S (p - S s)) by lia. assumption. }
            intros Hp. destruct (Hg 0 Hp) as [_ Hx]. rewrite Nat.sub_0_r in Hx. assumption. }
          unfold nd in Hkn. rewrite nth_error_map in Hkn. destruct (nth_error (dims a) k) as [d|] eqn:Hd; [|discriminate]. injection Hkn as Hkn. eapply Hone; eassumption. }
      eexists. apply make_ok; [|assumption]. unfold ndim. cbn [shape].
      rewrite (drop_at_keep (dropped nd) nd 0); [symmetry; apply length_keep; symmetry; assumption| |symmetry; assumption].
      intros i Hi. apply dropped_spec. assumption.
Qed.
End Modify.

Print Assumptions C54_modify.
Print Assumptions C54_modify_serves.

(** ** A movie of one frame, two rows, three columns *)
Definition movie : aa nat nat nat nat unit nat :=
  AA (Arr [1; 2; 3] (fun idx => 10 * nth 1 idx 0 + nth 2 idx 0)) [5; 6; 7] [(6, Linear 1 (1 # 2) 0); (7, Linear 2 1 4)] tt 3.

Definition show (r : aa nat nat nat nat unit nat) := (shape (data r), dims r, axes r, elt (data r) [1; 2], elt (data r) [2; 1]).

Example C54_case :
  well_formed movie /\
  option_map show (modify (Some [(5, None); (6, Some 7); (7, Some 6)]) movie) = Some ([2; 3], [7; 6], [(7, Linear 1 (1 # 2) 0); (6, Linear 2 1 4)], 12, 21) /\
  option_map (fun r => (shape (data r), dims r, elt (data r) [2; 0; 1])) (transpose_aa movie (Some [-1; 0; 1]%Z)) = Some ([3; 1; 2], [7; 5; 6], 12) /\
  option_map (map (fun r => (shape (data r), dims r, elt (data r) [0; 1]))) (iter_over_axis movie 2) = Some [([1; 2], [5; 6], 10); ([1; 2], [5; 6], 11); ([1; 2], [5; 6], 12)].
Proof.
  split; [split; [reflexivity|]; repeat (constructor; [simpl; lia|]); constructor|]. split; [reflexivity|]. split; reflexivity.
Qed.

(** Finding: an axis kept under a name that is not a dimension can take the place of a renamed one:
    dimension 6 becomes 9, and gets the axis that was kept under 9. *)
Theorem C54_modify_takes_another_axis_refuted :
  exists (a r : aa nat nat nat nat unit nat) m, well_formed a /\ NoDup (keys (axes a)) /\
    modify (Some m) a = Some r /\ In 6 (dims a) /\ renamed m 6 = Some 9 /\ get 9 (axes r) <> get 6 (axes a).
Proof.
  exists (AA (Arr [2] (fun idx => nth 0 idx 0)) [6] [(6, Linear 1 (1 # 2) 0); (9, Linear 2 1 4)] tt 3). eexists. exists [(6, Some 9)].
  split; [split; [reflexivity|]; repeat (constructor; [simpl; lia|]); constructor|].
  split; [repeat (constructor; [simpl; lia|]); constructor|].
  split; [reflexivity|]. split; [left; reflexivity|]. split; [reflexivity|]. discriminate.
Qed.
Print Assumptions C54_modify_takes_another_axis_refuted.
