(* C53: selecting from a labelled array by position or by value. *)

From Coq Require Import List Bool Arith ZArith QArith Qround Lqa Lia Sorted.
From Verif Require Import Dict ArrayModel ArraySpec ArrayProofs.
Import ListNotations.
Local Open Scope nat_scope.

Section Select.
Context {A D U V T K : Type} `{Dec D} `{Dec K}.
Variables (unit0 : U) (key0 : K).
Notation aarr := (aa A D U V T K).

(** What is selected along a dimension. *)
Definition chosen (ixs : list (D * indexer)) (d : D) (n : nat) : option (list nat) :=
  match get d ixs with Some ix => selected ix n | None => Some (seq 0 n) end.

(** The steps of isel: axes taken one after another. *)
Definition takes (d : arr A) (ks : list (nat * list nat)) : arr A :=
  fold_left (fun d p => take d (snd p) (fst p)) ks d.

Fixpoint source (ks : list (nat * list nat)) (idx : list nat) : list nat :=
  match ks with
  | [] => idx
  | (k, l) :: ks => let i := source ks idx in upd k (nth (nth k i 0) l 0) i
  end.

Lemma length_source ks idx : length (source ks idx) = length idx.
Proof. induction ks as [|[k l] ks IH]; cbn [source]; [reflexivity|]. cbv zeta. rewrite length_upd. assumption. Qed.

Lemma elt_takes ks : forall d idx, elt (takes d ks) idx = elt d (source ks idx).
Proof. induction ks as [|[k l] ks IH]; intros d idx; [reflexivity|]. cbn [takes fold_left source fst snd]. cbv zeta. unfold takes in IH. rewrite IH. reflexivity. Qed.

Lemma ndim_takes ks : forall d, ndim (takes d ks) = ndim d.
Proof. induction ks as [|[k l] ks IH]; intros d; [reflexivity|]. cbn [takes fold_left fst snd]. unfold takes in IH. rewrite IH. apply ndim_take. Qed.

Lemma nth_source ks idx j : NoDup (keys ks) -> j < length idx ->
  nth j (source ks idx) 0 = match get j ks with Some l => nth (nth j idx 0) l 0 | None => nth j idx 0 end.
Proof.
  intros Hn Hj. induction ks as [|[k l] ks IH]; [reflexivity|]. inversion Hn as [|? ? Hni Hn']; subst.
  cbn [source]. cbv zeta. cbn [get fst snd]. destruct (dec j k) as [->|Hne].
  - rewrite nth_upd_eq by (rewrite length_source; assumption). f_equal. rewrite IH by assumption.
    destruct (get k ks) eqn:Hg; [exfalso; apply Hni; eapply get_Some_key; eassumption|reflexivity].
  - rewrite nth_upd_neq by assumption. apply IH. assumption.
Qed.

Lemma size_takes ks : forall d j, NoDup (keys ks) -> j < ndim d ->
  size_at j (takes d ks) = match get j ks with Some l => length l | None => size_at j d end.
Proof.
  induction ks as [|[k l] ks IH]; intros d j Hn Hj; [reflexivity|]. inversion Hn as [|? ? Hni Hn']; subst.
  cbn [takes fold_left fst snd get]. unfold takes in IH. rewrite IH; [|assumption|rewrite ndim_take; assumption].
  destruct (dec j k) as [->|Hne].
  - destruct (get k ks) eqn:Hg; [exfalso; apply Hni; eapply get_Some_key; eassumption|]. rewrite size_take, Nat.eqb_refl by assumption. reflexivity.
  - destruct (get j ks); [reflexivity|]. unfold size_at, take. simpl. apply nth_upd_neq. assumption.
Qed.

(** What the loop of isel does. *)
Lemma isel_loop_takes (a : aarr) : NoDup (dims a) -> forall ixs axs d axs' d',
  isel_loop unit0 a ixs axs d = Some (axs', d') -> NoDup (keys ixs) ->
  exists ks, d' = takes d ks /\ NoDup (keys ks) /\
    (forall k l, get k ks = Some l <-> exists dn ix, nth_error (dims a) k = Some dn /\ get dn ixs = Some ix /\ selected ix (size_at k (data a)) = Some l) /\
    (forall dn ix, get dn ixs = Some ix -> exists k l, nth_error (dims a) k = Some dn /\ selected ix (size_at k (data a)) = Some l) /\
    keys axs' = keys axs /\
    (forall dn, ~ In dn (keys ixs) -> get dn axs' = get dn axs) /\
    (forall dn ix, get dn ixs = Some ix -> In dn (keys axs) -> exists u g o k j l, ax unit0 a dn = Some (u, g, o, k) /\
        selected ix (size_at k (data a)) = Some (j :: l) /\ get dn axs' = Some (Linear u g (lin_value g o (Z.of_nat j)))).
Proof.
  intros Hnd. induction ixs as [|[n ix] ixs IH]; intros axs d axs' d' Hl Hn.
  - simpl in Hl. injection Hl as <- <-. exists []. split; [reflexivity|]. split; [constructor|]. split.
    + intros k l. simpl. split; [discriminate|]. intros [dn [ix [_ [Hg _]]]]. discriminate.
    + split; [intros ? ? [=]|]. split; [reflexivity|]. split; [reflexivity|]. intros ? ? [=].
  - inversion Hn as [|? ? Hni Hn']; subst. cbn [isel_loop] in Hl.
    destruct (ax unit0 a n) as [[[[u g] o] i]|] eqn:Hax; [|discriminate].
    destruct (selected ix (size_at i (data a))) as [l|] eqn:Hsel; [|discriminate].
    assert (Hi : nth_error (dims a) i = Some n).
    { unfold ax in Hax. destruct (index_of n (dims a)) as [i'|] eqn:Hio; [|discriminate].
      apply index_of_Some in Hio. destruct Hio as [Hio _]. destruct (get n (axes a)) as [[]|]; congruence. }
    assert (Hstep : exists axs1, isel_loop unit0 a ixs axs1 (take d l i) = Some (axs', d') /\ keys axs1 = keys axs /\
       (forall dn, dn <> n -> get dn axs1 = get dn axs) /\
       (In n (keys axs) -> exists j l', l = j :: l' /\ get n axs1 = Some (Linear u g (lin_value g o (Z.of_nat j))))).
    { destruct (mem n (keys axs)) eqn:Hm.
      - destruct l as [|j l']; [discriminate|]. eexists. split; [exact Hl|]. apply mem_In in Hm. split.
        + clear -Hm. induction axs as [|[x y] axs IH]; [destruct Hm|]. simpl. destruct (dec n x) as [->|]; [reflexivity|]. simpl. f_equal. apply IH.
          destruct Hm as [Hx|Hm]; [simpl in Hx; congruence|assumption].
        + split; [intros; apply get_put_neq; assumption|]. intros _. exists j, l'. split; [reflexivity|]. apply get_put_eq.
      - exists axs. apply mem_false in Hm. split; [assumption|]. split; [reflexivity|]. split; [reflexivity|]. intros; contradiction. }
    clear Hl. destruct Hstep as [axs1 [Hl [Hk1 [Hg1 Hn1]]]].
    destruct (IH _ _ _ _ Hl Hn') as [ks [Hd [Hks [Hiff [Hin [Hkk [Hother Hset]]]]]]].
    exists ((i, l) :: ks). split; [rewrite Hd; reflexivity|]. split.
    { simpl. constructor; [|assumption]. intros Hx. apply key_get in Hx. destruct Hx as [l2 Hl2]. apply Hiff in Hl2.
      destruct Hl2 as [dn [ix2 [H1 [H2 _]]]]. assert (dn = n) by congruence. subst dn. apply Hni. eapply get_Some_key. eassumption. }
    split.
    { intros k l2. cbn [get fst snd]. destruct (dec k i) as [->|Hne].
      - split.
        + intros [= <-]. exists n, ix. split; [assumption|]. destruct (dec n n); [split; [reflexivity|assumption]|contradiction].
        + intros [dn [ix2 [H1 [H2 H3]]]]. assert (dn = n) by congruence. subst dn. destruct (dec n n); [|contradiction]. congruence.
      - rewrite Hiff. split; intros [dn [ix2 [H1 [H2 H3]]]]; exists dn, ix2; (split; [assumption|]); split; try assumption.
        + destruct (dec dn n) as [->|]; [|assumption]. exfalso. apply Hni. eapply get_Some_key. eassumption.
        + destruct (dec dn n) as [->|]; [|assumption]. exfalso. apply Hne.
          apply (proj1 (NoDup_nth_error (dims a)) Hnd); [apply nth_error_Some; congruence|congruence]. }
    split.
    { intros dn ix2 Hx. cbn [get fst snd] in Hx. destruct (dec dn n) as [->|Hne]; [|apply Hin; assumption].
      injection Hx as ->. exists i, l. auto. }
    split; [congruence|]. split.
    { intros dn Hx. rewrite Hother; [apply Hg1|]; intros Hy; apply Hx; [left; auto|right; assumption]. }
    { intros dn ix2 Hx Hy. cbn [get fst snd] in Hx. destruct (dec dn n) as [->|Hne].
      - injection Hx as ->. destruct (Hn1 Hy) as [j [l' [-> Hg]]]. exists u, g, o, i, j, l'. split; [assumption|]. split; [assumption|].
        rewrite Hother; [assumption|]. assumption.
      - apply Hset; [assumption|]. rewrite Hk1. assumption. }
Qed.

(** isel: a new array holding exactly the elements selected, with the same names, attributes, key. *)
Theorem C53_isel_selects (a r : aarr) ixs :
  length (dims a) = ndim (data a) -> NoDup (dims a) -> NoDup (keys ixs) ->
  isel unit0 a ixs = Some r ->
  dims r = dims a /\ attrs r = attrs a /\ key r = key a /\ keys (axes r) = keys (axes a) /\
  ndim (data r) = ndim (data a) /\
  (forall dn, In dn (keys ixs) -> In dn (dims a)) /\
  (forall dn, ~ In dn (keys ixs) -> get dn (axes r) = get dn (axes a)) /\
  (forall k dn, nth_error (dims a) k = Some dn ->
     exists l, chosen ixs dn (size_at k (data a)) = Some l /\ size_at k (data r) = length l) /\
  (forall idx src, in_range (shape (data r)) idx -> length src = ndim (data a) ->
     (forall k dn l, nth_error (dims a) k = Some dn -> chosen ixs dn (size_at k (data a)) = Some l ->
        nth_error l (nth k idx 0) = Some (nth k src 0)) ->
     elt (data r) idx = elt (data a) src).
Proof.
  intros Hlen Hnd Hn Hr. unfold isel in Hr. destruct (isel_loop unit0 a ixs (axes a) (data a)) as [[axs d]|] eqn:Hl; [|discriminate].
  apply make_Some in Hr. destruct Hr as [Hr1 [_ ->]]. simpl.
  destruct (isel_loop_takes a Hnd _ _ _ _ _ Hl Hn) as [ks [-> [Hks [Hiff [Hin [Hkk [Hother _]]]]]]].
  assert (Hchosen : forall k dn, nth_error (dims a) k = Some dn ->
     chosen ixs dn (size_at k (data a)) = Some (match get k ks with Some l => l | None => seq 0 (size_at k (data a)) end)).
  { intros k dn Hk. unfold chosen. destruct (get k ks) as [l|] eqn:Hg.
    - apply Hiff in Hg. destruct Hg as [dn2 [ix [H1 [H2 H3]]]]. assert (dn2 = dn) by congruence. subst. rewrite H2. assumption.
    - destruct (get dn ixs) as [ix|] eqn:Hgi; [|reflexivity]. exfalso.
      destruct (Hin dn ix Hgi) as [k2 [l [H1 H2]]].
      assert (k2 = k). { apply (proj1 (NoDup_nth_error (dims a)) Hnd); [apply nth_error_Some; congruence|congruence]. } subst k2.
      assert (get k ks = Some l); [|congruence]. apply Hiff. exists dn, ix. auto. }
  split; [reflexivity|]. split; [reflexivity|]. split; [reflexivity|]. split; [assumption|]. split; [apply ndim_takes|].
  split. { intros dn Hd. apply key_get in Hd. destruct Hd as [ix Hd]. destruct (Hin dn ix Hd) as [k [l [Hk _]]]. eapply nth_error_In; eassumption. }
  split; [assumption|]. split.
  - intros k dn Hk. rewrite (Hchosen k dn Hk). eexists. split; [reflexivity|].
    assert (k < ndim (data a)). { rewrite <- Hlen. apply nth_error_Some. congruence. }
    rewrite size_takes by assumption. destruct (get k ks); [reflexivity|]. rewrite seq_length. reflexivity.
  - intros idx src Hi Hs Hsrc. rewrite elt_takes. f_equal.
    assert (Hli : length idx = ndim (data a)). { apply in_range_length in Hi. rewrite Hi. apply ndim_takes. }
    apply (list_ext _ _ 0); [rewrite length_source; congruence|]. intros k Hk. rewrite length_source in Hk.
    rewrite nth_source by assumption. destruct (nth_error (dims a) k) as [dn|] eqn:Hkd.
    2:{ apply nth_error_None in Hkd. lia. }
    specialize (Hsrc k dn _ Hkd (Hchosen k dn Hkd)). destruct (get k ks) as [l|] eqn:Hg.
    + apply nth_error_nth with (d := 0) in Hsrc. assumption.
    + assert (nth k idx 0 < size_at k (data a)).
      { apply in_range_nth with (k := k) in Hi; [|fold (ndim (takes (data a) ks)); rewrite ndim_takes; lia].
        fold (size_at k (takes (data a) ks)) in Hi. rewrite size_takes in Hi by (try assumption; lia). rewrite Hg in Hi. assumption. }
      apply nth_error_nth with (d := 0) in Hsrc. rewrite seq_nth in Hsrc by assumption. exact Hsrc.
Qed.

(** Selecting the slice i:j of a dimension with a linear axis keeps the value of every sample. *)
Theorem C53_values_partial (a r : aarr) ixs dn (i j : nat) u g o :
  length (dims a) = ndim (data a) -> NoDup (dims a) -> NoDup (keys ixs) ->
  get dn (axes a) = Some (Linear u g o) ->
  get dn ixs = Some (ISlice (Slice (Some (Z.of_nat i)) (Some (Z.of_nat j)) None)) ->
  isel unit0 a ixs = Some r ->
  exists o', get dn (axes r) = Some (Linear u g o') /\
    forall m : nat, (lin_value g o' (Z.of_nat m) == lin_value g o (Z.of_nat (i + m)))%Q.
Proof.
  intros Hlen Hnd Hn Ha Hix Hr. unfold isel in Hr. destruct (isel_loop unit0 a ixs (axes a) (data a)) as [[axs d]|] eqn:Hl; [|discriminate].
  apply make_Some in Hr. destruct Hr as [_ [_ ->]]. simpl.
  destruct (isel_loop_takes a Hnd _ _ _ _ _ Hl Hn) as [ks [_ [_ [_ [_ [_ [_ Hset]]]]]]].
  destruct (Hset dn _ Hix (get_Some_key _ _ _ Ha)) as [u' [g' [o' [k [j' [l [Hax [Hsel Hg]]]]]]]].
  unfold ax in Hax. destruct (index_of dn (dims a)); [|discriminate]. rewrite Ha in Hax.
  assert (u' = u) by congruence. assert (g' = g) by congruence. assert (o' = o) by congruence. subst.
  rewrite Hg. eexists. split; [reflexivity|]. intros m. simpl in Hsel. rewrite slice_seq in Hsel. injection Hsel as Hsel.
  assert (j' = i). { destruct (Nat.min j (size_at k (data a)) - Nat.min i (size_at k (data a))) eqn:He; [discriminate|]. simpl in Hsel. injection Hsel as Hj _. lia. }
  subst j'. unfold lin_value. rewrite Nat2Z.inj_add, inject_Z_plus. ring.
Qed.

(** For any selection along a dimension with a linear axis: the samples keep their values exactly if
    the positions selected are consecutive. *)
Theorem C53_values_exactly_if_consecutive (a r : aarr) ixs dn k ix u g o l :
  length (dims a) = ndim (data a) -> NoDup (dims a) -> NoDup (keys ixs) -> ~ (g == 0)%Q ->
  nth_error (dims a) k = Some dn -> get dn (axes a) = Some (Linear u g o) ->
  get dn ixs = Some ix -> selected ix (size_at k (data a)) = Some l ->
  isel unit0 a ixs = Some r ->
  exists o', get dn (axes r) = Some (Linear u g o') /\
    ((forall m p, nth_error l m = Some p -> (lin_value g o' (Z.of_nat m) == lin_value g o (Z.of_nat p))%Q) <->
     (exists i, l = seq i (length l))).
Proof.
  intros Hlen Hnd Hn Hg0 Hk Ha Hix Hs Hr. unfold isel in Hr. destruct (isel_loop unit0 a ixs (axes a) (data a)) as [[axs d]|] eqn:Hl; [|discriminate].
  apply make_Some in Hr. destruct Hr as [_ [_ ->]]. simpl.
  destruct (isel_loop_takes a Hnd _ _ _ _ _ Hl Hn) as [ks [_ [_ [_ [_ [_ [_ Hset]]]]]]].
  destruct (Hset dn _ Hix (get_Some_key _ _ _ Ha)) as [u' [g' [o' [k' [j [l' [Hax [Hsel Hg]]]]]]]].
  unfold ax in Hax. rewrite (index_of_nth _ _ _ Hnd Hk) in Hax. rewrite Ha in Hax.
  assert (u' = u) by congruence. assert (g' = g) by congruence. assert (o' = o) by congruence. assert (k' = k) by congruence. subst.
  assert (l = j :: l') by congruence. subst l. clear Hsel Hs.
  rewrite Hg. eexists. split; [reflexivity|].
  assert (Hv : forall m p : nat, (lin_value g (lin_value g o (Z.of_nat j)) (Z.of_nat m) == lin_value g o (Z.of_nat p))%Q <-> p = j + m).
  { intros m p. unfold lin_value. split.
    - intros He. assert (Hx : ((inject_Z (Z.of_nat m) + inject_Z (Z.of_nat j)) * g == inject_Z (Z.of_nat p) * g)%Q) by lra.
      apply Qmult_inj_r in Hx; [|assumption]. rewrite <- inject_Z_plus in Hx. apply (proj1 (inject_Z_injective _ _)) in Hx. lia.
    - intros ->. rewrite Nat2Z.inj_add, inject_Z_plus. ring. }
  split.
  - intros Hall. exists j. apply (list_ext _ _ 0); [rewrite seq_length; reflexivity|]. intros m Hm. rewrite seq_nth by assumption.
    apply Hv. apply Hall. apply nth_error_nth'. assumption.
  - intros [i Hi] m p Hp. apply Hv. assert (Hm : m < length (j :: l')) by (apply nth_error_Some; congruence).
    apply nth_error_nth with (d := 0) in Hp. rewrite Hi in Hp. rewrite seq_nth in Hp by assumption.
    assert (i = j) by (simpl in Hi; congruence). lia.
Qed.

(** isel of one slice, in full. *)
Lemma isel_slice (a : aarr) dn k (s : pyslice) j l :
  length (dims a) = ndim (data a) -> NoDup (dims a) -> nth_error (dims a) k = Some dn ->
  (forall u c cd, get dn (axes a) <> Some (Coordinate u c cd)) ->
  slice_indices s (size_at k (data a)) = Some (j :: l) ->
  isel unit0 a [(dn, ISlice s)] =
  Some (AA (take (data a) (j :: l) k) (dims a)
           (match get dn (axes a) with Some (Linear u g o) => put dn (Linear u g (lin_value g o (Z.of_nat j))) (axes a) | _ => axes a end)
           (attrs a) (key a)).
Proof.
  intros Hlen Hnd Hk Hc Hs. unfold isel. cbn [isel_loop]. unfold ax. rewrite (index_of_nth _ _ _ Hnd Hk).
  destruct (get dn (axes a)) as [[u g o|u c cd]|] eqn:Hg.
  - simpl selected. rewrite Hs. replace (mem dn (keys (axes a))) with true by (symmetry; apply mem_In; eapply get_Some_key; eassumption).
    apply make_ok; [rewrite ndim_take; assumption|assumption].
  - exfalso. eapply Hc. reflexivity.
  - simpl selected. rewrite Hs. replace (mem dn (keys (axes a))) with false by (symmetry; apply mem_false; apply get_None; assumption).
    apply make_ok; [rewrite ndim_take; assumption|assumption].
Qed.

(** Cutting an array along a dimension and concatenating the pieces gives the array back. *)
Theorem C53_cut_and_concatenate (a : aarr) dn k stops :
  length (dims a) = ndim (data a) -> NoDup (dims a) -> nth_error (dims a) k = Some dn ->
  (forall u c cd, get dn (axes a) <> Some (Coordinate u c cd)) ->
  stops <> [] -> cuts stops (size_at k (data a)) ->
  exists pieces r, map (fun s => isel unit0 a [(dn, ISlice s)]) (slices 0 stops) = map Some pieces /\
    concat_aa key0 pieces dn None = Some r /\
    same (data r) (data a) /\ dims r = dims a /\ attrs r = attrs a /\ key r = key a /\ keys (axes r) = keys (axes a) /\
    (forall d, d <> dn -> get d (axes r) = get d (axes a)) /\
    match get dn (axes a) with
    | Some (Linear u g o) => exists o', get dn (axes r) = Some (Linear u g o') /\ (o' == o)%Q
    | x => get dn (axes r) = x
    end.
Proof.
  intros Hlen Hnd Hk Hc Hne [Hs Hlast].
  destruct (slices_cover stops 0 _ Hs Hlast) as [ls [Hls [Hcat [Hll Hnn]]]].
  rewrite Nat.sub_0_r in Hcat.
  set (ax1 := fun j : nat => match get dn (axes a) with Some (Linear u g o) => put dn (Linear u g (lin_value g o (Z.of_nat j))) (axes a) | _ => axes a end).
  set (pc := fun l : list nat => AA (take (data a) l k) (dims a) (ax1 (hd 0 l)) (attrs a) (key a) : aarr).
  exists (map pc ls).
  assert (Hp : map (fun s => isel unit0 a [(dn, ISlice s)]) (slices 0 stops) = map Some (map pc ls)).
  { clear Hcat Hll Hs Hlast Hne. revert ls Hls Hnn. generalize (slices 0 stops). intros ss. induction ss as [|s ss IH]; intros [|l ls]; simpl; intros Hls Hnn; try discriminate; [reflexivity|].
    injection Hls as Hl Hls. f_equal; [|apply IH; [assumption|intros; apply Hnn; right; assumption]].
    destruct l as [|j l]; [exfalso; apply (Hnn []); [left; reflexivity|reflexivity]|].
    rewrite (isel_slice a dn k s j l); auto. }
  destruct ls as [|l0 ls]; [destruct stops; [contradiction Hne; reflexivity|discriminate]|].
  assert (Hkn : k < ndim (data a)) by (rewrite <- Hlen; apply nth_error_Some; congruence).
  destruct (concatenate_takes (data a) k l0 ls Hkn) as [r [Hr Hsame]].
  exists (AA r (dims a) (ax1 (hd 0 l0)) (attrs a) (key a)). split; [assumption|]. split.
  - unfold concat_aa. cbn [map]. change (dims (pc l0)) with (dims a). change (key (pc l0)) with (key a). change (axes (pc l0)) with (ax1 (hd 0 l0)). change (attrs (pc l0)) with (attrs a).
    replace (forallb (fun b : aarr => eqd (dims b) (dims a)) (map pc ls)) with true.
    2:{ symmetry. apply forallb_forall. intros b Hb. apply in_map_iff in Hb. destruct Hb as [l [<- _]]. apply eqd_true. reflexivity. }
    replace (forallb (fun b : aarr => eqd (key b) (key a)) (pc l0 :: map pc ls)) with true.
    2:{ symmetry. apply forallb_forall. intros b [<-|Hb]; [apply eqd_true; reflexivity|]. apply in_map_iff in Hb. destruct Hb as [l [<- _]]. apply eqd_true. reflexivity. }
    unfold concat_axis. replace (forallb _ (pc l0 :: map pc ls)) with false.
    2:{ symmetry. cbn [forallb]. change (axes (pc l0)) with (ax1 (hd 0 l0)). unfold ax1.
        destruct (get dn (axes a)) as [[u g o|u c cd]|] eqn:Hg; [rewrite get_put_eq; reflexivity|exfalso; eapply Hc; reflexivity|rewrite Hg; reflexivity]. }
    rewrite (index_of_nth _ _ _ Hnd Hk).
    assert (Hr' : concatenate (data (pc l0) :: map data (map pc ls)) k = Some r) by (rewrite map_map; exact Hr).
    rewrite Hr'. apply make_ok; [|assumption]. destruct Hsame as [Hsh _]. unfold ndim. rewrite Hsh. simpl. rewrite length_upd. exact Hlen.
  - cbn [data dims axes attrs key]. split; [eapply same_trans; [eassumption|]; rewrite Hcat; apply take_all|].
    split; [reflexivity|]. split; [reflexivity|]. split; [reflexivity|].
    assert (Hl0 : hd 0 l0 = 0).
    { destruct l0 as [|j l0]; [exfalso; apply (Hnn []); [left; reflexivity|reflexivity]|]. simpl in *.
      destruct (size_at k (data a)); simpl in Hcat; congruence. }
    rewrite Hl0. unfold ax1. destruct (get dn (axes a)) as [[u g o|u c cd]|] eqn:Hg.
    + split.
      { pose proof (get_Some_key _ _ _ Hg) as Hin. clear -Hin. induction (axes a) as [|[x y] l IH]; [destruct Hin|]. simpl. destruct (dec dn x) as [->|Hn]; [reflexivity|]. simpl. f_equal. apply IH.
        destruct Hin as [Hx|Hin]; [simpl in Hx; congruence|assumption]. }
      split; [intros; apply get_put_neq; assumption|]. eexists. split; [apply get_put_eq|]. unfold lin_value. simpl. ring.
    + split; [reflexivity|]. split; [reflexivity|]. assumption.
    + split; [reflexivity|]. split; [reflexivity|]. assumption.
Qed.

(** ** Values and positions *)

Lemma rint_near (q : Q) (z : Z) : (q == inject_Z z)%Q -> rint q = z.
Proof.
  intros Hq. unfold rint. assert (Hf : Qfloor q = z) by (rewrite Hq; apply Qfloor_Z). rewrite Hf.
  assert (Hc : (q - inject_Z z ?= 1 # 2)%Q = Lt) by (apply (proj1 (Qlt_alt _ _)); lra).
  rewrite Hc. reflexivity.
Qed.

(** The index of the value of an index is that index. *)
Theorem C53_index_of_value (g o : Q) (x : Z) : ~ (g == 0)%Q -> lin_index g o (lin_value g o x) = Some x.
Proof.
  intros Hg. unfold lin_index. destruct (Qeq_bool g 0) eqn:Hq; [apply Qeq_bool_eq in Hq; contradiction|].
  f_equal. apply rint_near. unfold lin_value. field. assumption.
Qed.

Lemma rint_error (q : Q) : (q - (1 # 2) <= inject_Z (rint q) <= q + (1 # 2))%Q.
Proof.
  unfold rint. pose proof (Qfloor_le q) as H1. pose proof (Qlt_floor q) as H2. set (f := Qfloor q) in *.
  rewrite inject_Z_plus in H2. change (inject_Z 1) with 1%Q in H2.
  destruct (Qcompare (q - inject_Z f) (1 # 2)) eqn:Hc.
  - apply (proj2 (Qeq_alt _ _)) in Hc. destruct (Z.even f); [split; lra|].
    rewrite inject_Z_plus. change (inject_Z 1) with 1%Q. split; lra.
  - apply (proj2 (Qlt_alt _ _)) in Hc. split; lra.
  - apply (proj2 (Qgt_alt _ _)) in Hc. rewrite inject_Z_plus. change (inject_Z 1) with 1%Q. split; lra.
Qed.

(** The index of any value is one whose value is within half a gain of it. *)
Theorem C53_index_is_nearest (g o v : Q) (x : Z) : (0 < g)%Q -> lin_index g o v = Some x ->
  (v - g / 2 <= lin_value g o x <= v + g / 2)%Q.
Proof.
  intros Hg. unfold lin_index. destruct (Qeq_bool g 0); [discriminate|]. intros [= <-].
  destruct (rint_error ((v - o) / g)) as [H1 H2]. unfold lin_value.
  assert (Hg0 : ~ (g == 0)%Q) by (intros He; rewrite He in Hg; discriminate).
  apply Qmult_le_compat_r with (z := g) in H1; [|apply Qlt_le_weak; assumption].
  apply Qmult_le_compat_r with (z := g) in H2; [|apply Qlt_le_weak; assumption].
  split.
  - apply Qplus_le_l with (z := (- o)%Q). eapply Qle_trans; [|eapply Qle_trans; [apply H1|]]; [|ring_simplify; apply Qle_refl].
    apply Qle_lteq. right. field. assumption.
  - apply Qplus_le_l with (z := (- o)%Q). eapply Qle_trans; [|eapply Qle_trans; [apply H2|]]; [ring_simplify; apply Qle_refl|].
    apply Qle_lteq. right. field. assumption.
Qed.

(** Selecting between the values of two positions is selecting between the positions. *)
Theorem C53_sel_is_isel (a : aarr) dn u g o (i j : Z) :
  In dn (dims a) -> get dn (axes a) = Some (Linear u g o) -> ~ (g == 0)%Q ->
  sel unit0 a [(dn, VSlice (Some (lin_value g o i)) (Some (lin_value g o j)) None)] =
  isel unit0 a [(dn, ISlice (Slice (Some i) (Some j) None))].
Proof.
  intros Hin Ha Hg. unfold sel. cbn [sel_loop]. replace (mem dn (dims a)) with true by (symmetry; apply mem_In; assumption). rewrite Ha.
  cbn [v_start v_stop v_step opt_map]. rewrite !C53_index_of_value by assumption. reflexivity.
Qed.
End Select.

Print Assumptions C53_isel_selects.
Print Assumptions C53_values_partial.
Print Assumptions C53_values_exactly_if_consecutive.
Print Assumptions C53_cut_and_concatenate.
Print Assumptions C53_index_of_value.
Print Assumptions C53_index_is_nearest.
Print Assumptions C53_sel_is_isel.

(** ** A signal of two channels and ten samples, 100 samples a second, starting at 5 s *)
Definition sig : aa nat nat nat nat unit nat :=
  AA (Arr [2; 10] (fun idx => 10 * nth 0 idx 0 + nth 1 idx 0)) [7; 8] [(8, Linear 1 (1 # 100) 5)] tt 3.

Definition picture (r : aa nat nat nat nat unit nat) :=
  (shape (data r), map (fun i => map (fun j => elt (data r) [i; j]) (seq 0 (size_at 1 (data r)))) (seq 0 (size_at 0 (data r))),
   map (fun p => (fst p, match snd p with Linear u g o => (u, Qred g, Qred o) | Coordinate u _ _ => (u, 0, 0)%Q end)) (axes r)).

Local Open Scope Z_scope.
Example C53_case :
  option_map picture (isel 0%nat sig [(8%nat, ISlice (Slice (Some 4) (Some 8) None)); (7%nat, IInt (-1))])
  = Some ([1; 4], [[14; 15; 16; 17]], [(8, (1, (1 # 100)%Q, (126 # 25)%Q))])%nat
  /\ option_map picture (sel 0%nat sig [(8%nat, VSlice (Some (504 # 100)%Q) (Some (508 # 100)%Q) None)])
  = Some ([2; 4], [[4; 5; 6; 7]; [14; 15; 16; 17]], [(8, (1, (1 # 100)%Q, (126 # 25)%Q))])%nat
  /\ cuts [3; 4; 10]%nat 10.
Proof.
  split; [vm_compute; reflexivity|]. split; [vm_compute; reflexivity|]. split; [|reflexivity].
  repeat (apply SSorted_cons || apply SSorted_nil || apply Forall_cons || apply Forall_nil || lia).
Qed.

(** Finding: a slice with a step keeps the old gain.  The second sample selected is sample 2 of the
    array, at 5.02 s, but the new axis says 5.01 s. *)
Theorem C53_step_keeps_the_gain_refuted :
  exists r g o g' o',
    isel 0%nat sig [(8%nat, ISlice (Slice None None (Some 2)))] = Some r /\
    get 8%nat (axes sig) = Some (Linear 1%nat g o) /\ get 8%nat (axes r) = Some (Linear 1%nat g' o') /\
    elt (data r) [0; 1]%nat = elt (data sig) [0; 2]%nat /\
    ~ (lin_value g' o' 1 == lin_value g o 2)%Q.
Proof.
  do 5 eexists. split; [reflexivity|]. split; [reflexivity|]. split; [reflexivity|]. split; [reflexivity|]. discriminate.
Qed.

(** So does a list of positions. *)
Theorem C53_positions_keep_the_gain_refuted :
  exists r g o g' o',
    isel 0%nat sig [(8%nat, IArr [6; 1])] = Some r /\
    get 8%nat (axes sig) = Some (Linear 1%nat g o) /\ get 8%nat (axes r) = Some (Linear 1%nat g' o') /\
    elt (data r) [0; 1]%nat = elt (data sig) [0; 1]%nat /\
    ~ (lin_value g' o' 1 == lin_value g o 1)%Q.
Proof.
  do 5 eexists. split; [reflexivity|]. split; [reflexivity|]. split; [reflexivity|]. split; [reflexivity|]. discriminate.
Qed.

(** Finding: a dimension without an entry in [axes] counts as 0, 1, 2, ...; after a selection it
    counts from 0 again. *)
Theorem C53_unlabelled_dimension_restarts_refuted :
  exists r, isel 0%nat sig [(7%nat, ISlice (Slice (Some 1) None None))] = Some r /\
    elt (data r) [0; 0]%nat = elt (data sig) [1; 0]%nat /\
    exists u g o k u' g' o' k', ax 0%nat sig 7%nat = Some (u, g, o, k) /\ ax 0%nat r 7%nat = Some (u', g', o', k') /\
      ~ (lin_value g' o' 0 == lin_value g o 1)%Q.
Proof.
  eexists. split; [reflexivity|]. split; [reflexivity|]. do 8 eexists. split; [reflexivity|]. split; [reflexivity|]. discriminate.
Qed.

(** Finding: a dimension with explicit coordinates cannot be selected from at all. *)
Theorem C53_coordinates_refuted {A D U V T K} `{Dec D} (u0 : U) (a : aa A D U V T K) dn u c cd ix :
  get dn (axes a) = Some (Coordinate u c cd) -> isel u0 a [(dn, ix)] = None.
Proof. intros Hg. unfold isel. cbn [isel_loop]. unfold ax. destruct (index_of dn (dims a)); [rewrite Hg|]; reflexivity. Qed.

(** Finding: an empty selection raises if the dimension has an axis, and is served if it has none. *)
Theorem C53_empty_selection_refuted :
  isel 0%nat sig [(8%nat, ISlice (Slice (Some 3) (Some 3) None))] = None /\
  exists r, isel 0%nat sig [(7%nat, ISlice (Slice (Some 1) (Some 1) None))] = Some r /\ shape (data r) = [0; 10]%nat.
Proof. split; [reflexivity|]. eexists. split; reflexivity. Qed.

(** Finding: a start before the first sample is counted from the end.  Everything from 4.94 s to
    5.07 s is asked for; samples 4 to 6 are returned and samples 0 to 3 are not. *)
Theorem C53_start_before_the_axis_refuted :
  exists r, sel 0%nat sig [(8%nat, VSlice (Some (494 # 100)%Q) (Some (507 # 100)%Q) None)] = Some r /\
    map (fun j => elt (data r) [0; j]%nat) (seq 0 (size_at 1 (data r))) = [4; 5; 6]%nat /\
    forall j, 0 <= j <= 3 -> ((494 # 100) <= lin_value (1 # 100) 5 j < (507 # 100))%Q.
Proof.
  eexists. split; [reflexivity|]. split; [vm_compute; reflexivity|].
  intros j Hj. assert (j = 0 \/ j = 1 \/ j = 2 \/ j = 3) as [-> | [-> | [-> | ->]]] by lia; split; vm_compute; congruence || reflexivity.
Qed.

Print Assumptions C53_step_keeps_the_gain_refuted.
Print Assumptions C53_positions_keep_the_gain_refuted.
Print Assumptions C53_unlabelled_dimension_restarts_refuted.
Print Assumptions C53_coordinates_refuted.
Print Assumptions C53_empty_selection_refuted.
Print Assumptions C53_start_before_the_axis_refuted.
