(* C45: relay units at the boundaries of collections keep the connectivity. *)

From Coq Require Import List NArith Arith Bool Lia Permutation.
From Verif Require Import Dict CodecModel TreeModel TreeProofs RelayProofs TreeProps.
Import ListNotations.

(** ** Specification *)

(** Messages published to a topic reach the topics along the edges. *)
Inductive reaches {T} (edge : T -> T -> Prop) : T -> T -> Prop :=
| reaches_self a : reaches edge a a
| reaches_step a b c : edge a b -> reaches edge b c -> reaches edge a c.

(** The connections given, and those in the network() of the collections. *)
Definition direct (loc : list pystr) (cs : list comp) (conns : list (pystr * pystr)) (a b : pystr) : Prop :=
  In (a, b) conns \/
  exists y n ss cs' l net e f,
    holds loc cs y /\ snd y = CollC n ss cs' l net /\ In (e, f) net /\
    a = match e with Inner p => join (place y ++ p) | Topic t => t end /\
    b = match f with Inner p => join (place y ++ p) | Topic t => t end.

(** The topics of the relay units: what is published to the first is republished on the second. *)
Definition relays (loc : list pystr) (cs : list comp) (a b : pystr) : Prop :=
  exists y s n, boundary loc cs y s n /\ a = join (place y ++ [n; INPUT]) /\ b = join (place y ++ [n; OUTPUT]).

(** Topics of no relay unit. *)
Definition ordinary (loc : list pystr) (cs : list comp) (t : pystr) : Prop :=
  forall a b, relays loc cs a b -> t <> a /\ t <> b.

(** ** The rewriting *)

Lemma reaches_trans {T} (edge : T -> T -> Prop) a b c : reaches edge a b -> reaches edge b c -> reaches edge a c.
Proof. induction 1 as [a|a b c' E H IH]; intros K; [exact K|]. eapply reaches_step; [exact E|exact (IH K)]. Qed.

Section Rewriting.
Variables (es : list (pystr * pystr)) (bs : list (pystr * binding)).
Hypothesis in_inj : forall e b e' b', In (e, b) bs -> In (e', b') bs -> relay_in b = relay_in b' -> e = e'.
Hypothesis out_inj : forall e b e' b', In (e, b) bs -> In (e', b') bs -> relay_out b = relay_out b' -> e = e'.
Hypothesis in_out : forall e b e' b', In (e, b) bs -> In (e', b') bs -> relay_in b <> relay_out b'.
Let fresh (t : pystr) : Prop := forall e b, In (e, b) bs -> t <> relay_in b /\ t <> relay_out b.
Hypothesis keys_fresh : forall e b, In (e, b) bs -> fresh e.
Hypothesis es_fresh : forall a b, In (a, b) es -> fresh a /\ fresh b.

Let hop (a b : pystr) : Prop := In (a, b) (rewrite_connections bs es) \/ exists e x, In (e, x) bs /\ a = relay_in x /\ b = relay_out x.

Lemma forward_step a b : In (a, b) es -> reaches hop a b.
Proof.
  intros I.
  assert (R : hop (match get a bs with Some x => if is_input x then relay_out x else a | None => a end)
                  (match get b bs with Some x => if is_input x then b else relay_in x | None => b end)).
  { left. apply in_or_app. left. apply in_map_iff. exists (a, b). split; [reflexivity|exact I]. }
  assert (B : forall e x, In (e, x) bs -> hop (fst (binding_connection (e, x))) (snd (binding_connection (e, x)))).
  { intros e x J. left. apply in_or_app. right. apply in_map_iff. exists (e, x). split; [apply surjective_pairing|exact J]. }
  assert (H : forall e x, In (e, x) bs -> hop (relay_in x) (relay_out x)) by (intros e x J; right; eauto).
  apply (reaches_trans _ _ (match get a bs with Some x => if is_input x then relay_out x else a | None => a end)).
  - destruct (get a bs) as [x|] eqn:G; [|constructor]. destruct (is_input x) eqn:K; [|constructor]. apply get_In in G.
    specialize (B _ _ G). unfold binding_connection in B. cbn [fst snd] in B. rewrite K in B. cbn [fst snd] in B.
    eapply reaches_step; [exact B|]. eapply reaches_step; [exact (H _ _ G)|constructor].
  - eapply reaches_step; [exact R|]. destruct (get b bs) as [x|] eqn:G; [|constructor]. destruct (is_input x) eqn:K; [constructor|]. apply get_In in G.
    specialize (B _ _ G). unfold binding_connection in B. cbn [fst snd] in B. rewrite K in B. cbn [fst snd] in B.
    eapply reaches_step; [exact (H _ _ G)|]. eapply reaches_step; [exact B|constructor].
Qed.

Definition collapse (t : pystr) : pystr :=
  match find (fun p => eqd t (relay_in (snd p)) || eqd t (relay_out (snd p))) bs with Some p => fst p | None => t end.

Lemma collapse_fresh t : fresh t -> collapse t = t.
Proof.
  intros F. unfold collapse. destruct (find _ bs) as [[e b]|] eqn:E; [|reflexivity]. apply find_some in E. destruct E as [I E].
  cbn [snd] in E. apply orb_true_iff in E. destruct (F _ _ I). destruct E as [E|E]; apply (proj1 (eqd_true _ _)) in E; contradiction.
Qed.

Lemma collapse_relay e b t : In (e, b) bs -> t = relay_in b \/ t = relay_out b -> collapse t = e.
Proof.
  intros I T. unfold collapse. destruct (find _ bs) as [[e' b']|] eqn:E.
  - apply find_some in E. destruct E as [I' E]. cbn [fst snd] in *. apply orb_true_iff in E.
    destruct E as [E|E]; apply (proj1 (eqd_true _ _)) in E; destruct T as [T|T]; rewrite T in E.
    + symmetry. exact (in_inj _ _ _ _ I I' E).
    + symmetry in E. destruct (in_out _ _ _ _ I' I E).
    + destruct (in_out _ _ _ _ I I' E).
    + symmetry. exact (out_inj _ _ _ _ I I' E).
  - exfalso. apply (find_none _ _ E) in I. cbn [snd] in I. apply orb_false_iff in I. destruct I as [I1 I2].
    apply (proj1 (eqd_false _ _)) in I1. apply (proj1 (eqd_false _ _)) in I2. destruct T; contradiction.
Qed.

Lemma backward_step a b : hop a b -> collapse a = collapse b \/ In (collapse a, collapse b) es.
Proof.
  intros [I|(e & x & I & -> & ->)]; [|left; rewrite (collapse_relay e x _ I), (collapse_relay e x _ I); auto].
  apply in_app_or in I. destruct I as [I|I]; apply in_map_iff in I.
  - destruct I as ([a0 b0] & E & I). right. unfold rewrite_connection in E. cbn [fst snd] in E.
    assert (Ea : collapse a = a0).
    { assert (a = match get a0 bs with Some x => if is_input x then relay_out x else a0 | None => a0 end) as -> by congruence.
      destruct (es_fresh _ _ I) as [F _]. destruct (get a0 bs) as [x|] eqn:G; [|apply collapse_fresh; exact F].
      destruct (is_input x); [|apply collapse_fresh; exact F]. apply get_In in G. apply (collapse_relay _ _ _ G). auto. }
    assert (Eb : collapse b = b0).
    { assert (b = match get b0 bs with Some x => if is_input x then b0 else relay_in x | None => b0 end) as -> by congruence.
      destruct (es_fresh _ _ I) as [_ F]. destruct (get b0 bs) as [x|] eqn:G; [|apply collapse_fresh; exact F].
      destruct (is_input x); [apply collapse_fresh; exact F|]. apply get_In in G. apply (collapse_relay _ _ _ G). auto. }
    rewrite Ea, Eb. exact I.
  - destruct I as ([e x] & E & I). left. unfold binding_connection in E. cbn [fst snd] in E.
    pose proof (collapse_fresh _ (keys_fresh _ _ I)) as Ke.
    destruct (is_input x); injection E as <- <-; rewrite Ke; [symmetry|]; apply (collapse_relay _ _ _ I); auto.
Qed.

Lemma rewriting_keeps a b : fresh a -> fresh b -> (reaches (fun x y => In (x, y) es) a b <-> reaches hop a b).
Proof.
  intros Fa Fb. split.
  - induction 1 as [a|a b c E H IH]; [constructor|]. apply (reaches_trans _ _ b); [apply forward_step; exact E|].
    apply IH; [apply (es_fresh _ _ E)|exact Fb].
  - intros H. rewrite <- (collapse_fresh a Fa), <- (collapse_fresh b Fb). clear Fa Fb.
    induction H as [a|a b c E H IH]; [constructor|]. destruct (backward_step _ _ E) as [->|I]; [exact IH|].
    eapply reaches_step; [exact I|exact IH].
Qed.
End Rewriting.

(** ** Systems *)

Lemma visited_spec loc cs y : In y (flat_map (fun c => crawl_components (loc, c)) cs) <-> holds loc cs y.
Proof.
  rewrite in_flat_map, holds_each. split; intros (c & I & H); exists c; (split; [exact I|]).
  - apply In_preorder. exact (Permutation_in _ (crawl_components_perm (loc, c)) H).
  - apply In_preorder in H. exact (Permutation_in _ (Permutation_sym (crawl_components_perm (loc, c))) H).
Qed.

Lemma added_coll loc cs cs' y' n ss ds l net : add_relays_all cs = Some cs' -> holds loc cs' y' -> snd y' = CollC n ss ds l net ->
  exists y ds0, holds loc cs y /\ fst y = fst y' /\ snd y = CollC n ss ds0 l net.
Proof.
  intros A H S. assert (X : cs' = cs' ++ []) by (rewrite app_nil_r; reflexivity).
  destruct (holds_added _ _ _ H cs cs' [] X A) as [(y & Hy & El & Ec)|[(y & s & m & Hb & ->)|(_ & [])]]; [intros r []| |discriminate].
  rewrite S in Ec. destruct (snd y) as [n0 ss0 o0 f0|n0 ss0 cs0 l0 net0] eqn:Sy; [discriminate|]. rewrite add_relays_coll in Ec.
  destruct (add_relays_all cs0); [|discriminate]. destruct (relay_units ss0 (map name_of cs0)); [|discriminate].
  injection Ec as -> -> _ -> ->. exists y, cs0. auto.
Qed.

Lemma orig_coll loc cs cs' y n ss ds l net : add_relays_all cs = Some cs' -> holds loc cs y -> snd y = CollC n ss ds l net ->
  exists ds', holds loc cs' (fst y, CollC n ss ds' l net).
Proof.
  intros A H S. destruct (holds_added_orig _ _ _ H cs' [] A) as (c' & Ec & Hc). rewrite app_nil_r in Hc. rewrite S, add_relays_coll in Ec.
  destruct (add_relays_all ds); [|discriminate]. destruct (relay_units ss (map name_of ds)); [|discriminate]. injection Ec as <-. eauto.
Qed.

Lemma bindings_spec loc cs cs' e b : add_relays_all cs = Some cs' ->
  (In (e, b) (flat_map bindings_at (flat_map (fun c => crawl_components (loc, c)) cs')) <->
   exists y s n, boundary loc cs y s n /\ e = join (place y ++ [fst s]) /\
     b = Binding (match snd s with InputRelay => true | _ => false end) (join (place y ++ [n; INPUT])) (join (place y ++ [n; OUTPUT]))).
Proof.
  intros A. rewrite in_flat_map. split.
  - intros (y' & V & I). apply visited_spec in V. unfold bindings_at in I. destruct (snd y') as [|n ss ds l net] eqn:S; [destruct I|].
    apply in_flat_map in I. destruct I as (s & Is & I). destruct (relay_name s) as [m|] eqn:Em; [|destruct I]. destruct I as [I|[]].
    destruct (added_coll _ _ _ _ _ _ _ _ _ A V S) as (y & ds0 & Hy & El & Sy).
    assert (Ep : place y' = place y) by (unfold place; rewrite El, S, Sy; reflexivity). rewrite Ep in I. injection I as <- <-.
    exists y, s, m. split; [|auto]. split; [exact Hy|]. split; [eauto 10|]. rewrite Sy. split; [exact Is|]. apply relay_name_spec. exact Em.
  - intros (y & s & m & (Hy & (n & ss & ds & l & net & Sy) & Is & Em) & -> & ->). apply relay_name_spec in Em.
    destruct (orig_coll _ _ _ _ _ _ _ _ _ A Hy Sy) as (ds' & H'). exists (fst y, CollC n ss ds' l net).
    split; [apply visited_spec; exact H'|]. unfold bindings_at. cbn [snd].
    assert (Ep : place (fst y, CollC n ss ds' l net) = place y) by (unfold place; rewrite Sy; reflexivity). rewrite Ep.
    apply in_flat_map. exists s. rewrite Sy in Is. split; [exact Is|]. rewrite Em. left. reflexivity.
Qed.

Lemma edges_spec loc cs cs' conns a b : add_relays_all cs = Some cs' ->
  (In (a, b) (conns ++ flat_map edges_at (flat_map (fun c => crawl_components (loc, c)) cs')) <-> direct loc cs conns a b).
Proof.
  intros A. rewrite in_app_iff. unfold direct. apply or_iff_compat_l. rewrite in_flat_map. split.
  - intros (y' & V & I). apply visited_spec in V. unfold edges_at in I. destruct (snd y') as [|n ss ds l net] eqn:S; [destruct I|].
    destruct (added_coll _ _ _ _ _ _ _ _ _ A V S) as (y & ds0 & Hy & El & Sy).
    assert (Ep : place y' = place y) by (unfold place; rewrite El, S, Sy; reflexivity).
    apply in_map_iff in I. destruct I as ([e f] & E & I). unfold normalize in E. cbn [fst snd] in E. rewrite Ep in E.
    injection E as <- <-. exists y, n, ss, ds0, l, net, e, f. auto.
  - intros (y & n & ss & ds & l & net & e & f & Hy & Sy & I & -> & ->).
    destruct (orig_coll _ _ _ _ _ _ _ _ _ A Hy Sy) as (ds' & H'). exists (fst y, CollC n ss ds' l net).
    split; [apply visited_spec; exact H'|]. unfold edges_at. cbn [snd].
    assert (Ep : place (fst y, CollC n ss ds' l net) = place y) by (unfold place; rewrite Sy; reflexivity).
    apply in_map_iff. exists (e, f). unfold normalize. cbn [fst snd]. rewrite Ep. auto.
Qed.

Lemma reaches_equiv {T} (E F : T -> T -> Prop) a b : (forall x y, E x y <-> F x y) -> (reaches E a b <-> reaches F a b).
Proof.
  intros H. split; (induction 1 as [a|a b c K R IH]; [constructor|]; eapply reaches_step; [apply H; exact K|exact IH]).
Qed.

Section System.
Variables (loc : list pystr) (cs cs' : list comp).
Hypothesis W : well_named loc cs.
Hypothesis NR : no_relay_names loc cs.
Hypothesis A : add_relays_all cs = Some cs'.

Lemma relay_streams y s n y2 s2 n2 i j :
  boundary loc cs y s n -> boundary loc cs y2 s2 n2 -> In (i, Plain) [(INPUT, Plain); (OUTPUT, Plain)] -> In (j, Plain) [(INPUT, Plain); (OUTPUT, Plain)] ->
  join (place y ++ [n; i]) = join (place y2 ++ [n2; j]) -> y = y2 /\ s = s2 /\ i = j.
Proof.
  intros B B2 I J E. pose proof (well_named_added _ _ _ W NR A) as W'.
  destruct (C44_addresses_unique loc cs' W') as (_ & U & _).
  destruct (U (place y, relay_unit n) (place y2, relay_unit n2) (i, Plain) (j, Plain) (holds_relay _ _ _ _ _ _ A B) (holds_relay _ _ _ _ _ _ A B2) I J) as (E1 & E2).
  - unfold place at 1 3. cbn [fst snd name_of relay_unit]. rewrite <- !app_assoc. exact E.
  - injection E1 as Ep En. injection E2 as ->. assert (y = y2) by (apply (holds_place_inj _ _ _ _ W); [apply B|apply B2|exact Ep]).
    split; [assumption|]. split; [|reflexivity]. destruct B as (_ & _ & _ & K), B2 as (_ & _ & _ & K2). subst n2.
    apply relay_name_spec in K. apply relay_name_spec in K2. exact (relay_name_inj _ _ _ K K2).
Qed.

Lemma stream_is_ordinary y s : holds loc cs y -> In s (streams_of (snd y)) -> ordinary loc cs (join (place y ++ [fst s])).
Proof.
  intros H I a b (z & t & n & B & -> & ->). pose proof (well_named_added _ _ _ W NR A) as W'.
  destruct (C44_addresses_unique loc cs' W') as (_ & U & _).
  destruct (holds_added_orig _ _ _ H cs' [] A) as (c' & Ec & Hc). rewrite app_nil_r in Hc. destruct (add_relays_same _ _ Ec) as (En & Es).
  assert (Ep : place (fst y, c') = place y) by (unfold place; cbn [fst snd]; rewrite En; reflexivity).
  assert (K : forall i, In (i, Plain) [(INPUT, Plain); (OUTPUT, Plain)] -> join (place y ++ [fst s]) <> join (place z ++ [n; i])).
  { intros i Ii E. destruct (U (fst y, c') (place z, relay_unit n) s (i, Plain) Hc (holds_relay _ _ _ _ _ _ A B)) as (E1 & _).
    - cbn [snd]. rewrite Es. exact I.
    - exact Ii.
    - rewrite Ep. unfold place at 2. cbn [fst snd name_of relay_unit]. rewrite <- !app_assoc. exact E.
    - injection E1 as El Ec'. rewrite Ec' in Ec, En. cbn [name_of relay_unit] in En.
      destruct B as (Hz & (m & ss & ds & l & net & Sz) & It & Kt).
      (* y would be a unit called n in the collection z, where add_relays has found none *)
      assert (Ey : In (snd y) (children_of (snd z))).
      { destruct (holds_parent _ _ _ H) as [(F & _)|(w & Hw & Ic & Ew)].
        - destruct (holds_place _ _ _ Hz) as (c & p & _ & F2). rewrite F, F2 in El. apply (f_equal (@length pystr)) in El.
          rewrite app_length in El. cbn in El. lia.
        - assert (w = z) as <- by (apply (holds_place_inj _ _ _ _ W Hw Hz); congruence). exact Ic. }
      destruct (holds_added_orig _ _ _ Hz cs' [] A) as (d & Ed & _). rewrite Sz, add_relays_coll in Ed.
      destruct (add_relays_all ds) as [ds'|]; [|discriminate]. destruct (relay_units ss (map name_of ds)) as [rs|] eqn:Er; [|discriminate].
      destruct (relay_units_spec _ _ _ Er) as (R1 & R2). rewrite Sz in Ey, It. cbn [children_of streams_of] in *.
      assert (Nd : NoDup (map name_of ds)).
      { destruct W as (_ & _ & W3). destruct (W3 z Hz) as (_ & _ & M). rewrite Sz in M. exact (NoDup_app_l _ _ M). }
      apply (NoDup_app_disjoint _ _ n (R2 Nd)).
      + rewrite En. apply in_map. exact Ey.
      + apply relay_name_spec in Kt. apply in_map_iff. exists (relay_unit n). split; [reflexivity|]. apply R1. eauto. }
  split; apply K; cbn; auto.
Qed.
End System.

(** C45.  In a well-named system in which no stream is called like a relay unit, set up with
    relay units at the boundaries, and whose connections do not name the streams of the relay units:
    a topic that is not of a relay unit reaches another through the connections made and the relay
    units exactly if it reaches it through the connections given. *)
Theorem C45_relays_keep_connectivity :
  forall root cs conns listed force ctx,
    let loc := match root with Some r => [r] | None => [] end in
    well_named loc cs -> no_relay_names loc cs ->
    setup root cs conns listed force = SetupOk ctx ->
    (forall a b, direct loc cs conns a b -> ordinary loc cs a /\ ordinary loc cs b) ->
    forall a b, ordinary loc cs a -> ordinary loc cs b ->
      (reaches (direct loc cs conns) a b <->
       reaches (fun x y => In (x, y) (connections ctx) \/ relays loc cs x y) a b).
Proof.
  intros root cs conns listed force ctx loc W NR E ES a b Oa Ob. unfold setup in E. fold loc in E.
  destruct (add_relays_all cs) as [cs'|] eqn:A; [|discriminate].
  set (bs := flat_map bindings_at (flat_map (fun c => crawl_components (loc, c)) cs')) in *.
  set (es := conns ++ flat_map edges_at (flat_map (fun c => crawl_components (loc, c)) cs')) in *.
  assert (C : connections ctx = rewrite_connections bs es).
  { assert (C : connections ctx = match bs with [] => es | _ => rewrite_connections bs es end).
    { destruct (if force then [concat (collect_processes loc listed cs')] else collect_processes loc listed cs'); [discriminate|]. injection E as <-. reflexivity. }
    rewrite C. destruct bs; [|reflexivity]. unfold rewrite_connections. cbn [map]. rewrite app_nil_r. rewrite <- map_id at 1.
    apply map_ext. intros [x y]. reflexivity. }
  assert (BS : forall e x, In (e, x) bs <-> exists y s n, boundary loc cs y s n /\ e = join (place y ++ [fst s]) /\
     x = Binding (match snd s with InputRelay => true | _ => false end) (join (place y ++ [n; INPUT])) (join (place y ++ [n; OUTPUT]))).
  { intros e x. apply bindings_spec. exact A. }
  assert (FR : forall t, ordinary loc cs t -> forall e x, In (e, x) bs -> t <> relay_in x /\ t <> relay_out x).
  { intros t O e x I. apply BS in I. destruct I as (y & s & n & B & -> & ->). cbn [relay_in relay_out]. apply O. exists y, s, n. auto. }
  rewrite C.
  rewrite (reaches_equiv (direct loc cs conns) (fun x y => In (x, y) es)) by (intros x y; symmetry; apply edges_spec; exact A).
  rewrite (reaches_equiv (fun x y => In (x, y) (rewrite_connections bs es) \/ relays loc cs x y)
                         (fun x y => In (x, y) (rewrite_connections bs es) \/ exists e z, In (e, z) bs /\ x = relay_in z /\ y = relay_out z)).
  2:{ intros x y. apply or_iff_compat_l. unfold relays. split.
      - intros (w & s & n & B & -> & ->). eexists. eexists. split; [apply BS; exists w, s, n; split; [exact B|]; split; reflexivity|]. split; reflexivity.
      - intros (e & z & I & -> & ->). apply BS in I. destruct I as (w & s & n & B & _ & ->). exists w, s, n. auto. }
  apply rewriting_keeps.
  - intros e x e' x' I J F. apply BS in I. apply BS in J. destruct I as (y & s & n & B & -> & ->). destruct J as (y2 & s2 & n2 & B2 & -> & ->).
    cbn [relay_in] in F. destruct (relay_streams _ _ _ W NR A _ _ _ _ _ _ _ _ B B2 (or_introl eq_refl) (or_introl eq_refl) F) as (-> & -> & _). reflexivity.
  - intros e x e' x' I J F. apply BS in I. apply BS in J. destruct I as (y & s & n & B & -> & ->). destruct J as (y2 & s2 & n2 & B2 & -> & ->).
    cbn [relay_out] in F. destruct (relay_streams _ _ _ W NR A _ _ _ _ _ _ _ _ B B2 (or_intror (or_introl eq_refl)) (or_intror (or_introl eq_refl)) F) as (-> & -> & _). reflexivity.
  - intros e x e' x' I J F. apply BS in I. apply BS in J. destruct I as (y & s & n & B & -> & ->). destruct J as (y2 & s2 & n2 & B2 & -> & ->).
    cbn [relay_in relay_out] in F.
    destruct (relay_streams _ _ _ W NR A _ _ _ _ _ _ _ _ B B2 (or_introl eq_refl) (or_intror (or_introl eq_refl)) F) as (_ & _ & K). discriminate.
  - intros e x I. apply FR. apply BS in I. destruct I as (y & s & n & B & -> & ->). apply (stream_is_ordinary loc cs cs' W NR A); apply B.
  - intros x y I. apply (edges_spec loc cs cs' conns x y A) in I. destruct (ES _ _ I). split; apply FR; assumption.
  - apply FR. exact Oa.
  - apply FR. exact Ob.
Qed.
Print Assumptions C45_relays_keep_connectivity.

(** C45.  In particular, the streams of the components of the system are connected as given. *)
Theorem C45_streams_are_connected_as_given :
  forall root cs conns listed force ctx,
    let loc := match root with Some r => [r] | None => [] end in
    well_named loc cs -> no_relay_names loc cs ->
    setup root cs conns listed force = SetupOk ctx ->
    (forall a b, direct loc cs conns a b -> ordinary loc cs a /\ ordinary loc cs b) ->
    forall y s z t, holds loc cs y -> In s (streams_of (snd y)) -> holds loc cs z -> In t (streams_of (snd z)) ->
      (reaches (direct loc cs conns) (join (place y ++ [fst s])) (join (place z ++ [fst t])) <->
       reaches (fun x y => In (x, y) (connections ctx) \/ relays loc cs x y) (join (place y ++ [fst s])) (join (place z ++ [fst t]))).
Proof.
  intros root cs conns listed force ctx loc W NR E ES y s z t Hy Is Hz It.
  assert (A : exists cs', add_relays_all cs = Some cs').
  { unfold setup in E. fold loc in E. destruct (add_relays_all cs) as [cs'|]; [eauto|discriminate]. }
  destruct A as (cs' & A).
  apply (C45_relays_keep_connectivity root cs conns listed force ctx W NR E ES); apply (stream_is_ordinary loc cs cs' W NR A); assumption.
Qed.
Print Assumptions C45_streams_are_connected_as_given.

(** Boundary topics that hide a cycle: the collection "A" sends what comes in at "I" to the topic
    "T", which is connected to "I". *)
Definition loop_system : list comp := [CollC (ch 65) [(ch 73, InputRelay)] [] [] [(Inner [ch 73], Topic (ch 84))]].

Lemma example_boundary y s n : boundary [] example_system y s n -> y = ([], example_coll) /\ s = (ch 73, InputRelay) /\ n = relay_in_prefix ++ ch 73.
Proof.
  intros (H & (m & ss & ds & l & net & Sy) & I & K). apply example_holds in H.
  destruct H as [<-|[<-|[<-|[<-|[<-|[]]]]]]; try discriminate Sy. cbn in I. destruct I as [<-|[]]. cbn in K. auto.
Qed.

Example C45_case :
  well_named [] example_system /\ no_relay_names [] example_system /\
  (exists ctx, setup None example_system [(ch 84, [65; 47; 73]%N)] [] false = SetupOk ctx) /\
  (forall a b, direct [] example_system [(ch 84, [65; 47; 73]%N)] a b -> ordinary [] example_system a /\ ordinary [] example_system b) /\
  ordinary [] example_system (ch 84) /\ ordinary [] example_system [65; 47; 85; 47; 73]%N /\
  reaches (direct [] example_system [(ch 84, [65; 47; 73]%N)]) (ch 84) [65; 47; 85; 47; 73]%N.
Proof.
  assert (O : forall t, length t <= 6 -> ordinary [] example_system t).
  { intros t L a b (y & s & n & B & -> & ->). apply example_boundary in B. destruct B as (-> & -> & ->).
    split; intros ->; vm_compute in L; lia. }
  split; [exact example_well_named|]. split; [exact example_no_relay_names|]. split; [eexists; vm_compute; reflexivity|].
  split; [|split; [|split]].
  - intros a b [I|(y & n & ss & ds & l & net & e & f & H & Sy & I & -> & ->)].
    + destruct I as [I|[]]. injection I as <- <-. split; apply O; cbn; lia.
    + apply example_holds in H. destruct H as [<-|[<-|[<-|[<-|[<-|[]]]]]]; try discriminate Sy. injection Sy as <- <- <- <- <-.
      destruct I as [I|[]]. injection I as <- <-. split; apply O; cbn; lia.
  - apply O. cbn. lia.
  - apply O. cbn. lia.
  - eapply reaches_step; [left; left; reflexivity|]. eapply reaches_step; [|constructor]. right.
    exists ([], example_coll). do 5 eexists. exists (Inner [ch 73]), (Inner [ch 85; ch 73]).
    split; [apply holds_here; left; reflexivity|]. split; [reflexivity|]. split; [left; reflexivity|]. split; reflexivity.
Qed.

Lemma loop_well_named : well_named [] loop_system.
Proof.
  split; [intros n []|]. split; [cbn; nodup|]. intros y H. apply holds_singleton in H.
  destruct H as [->|H]; [|inversion H; match goal with K : In _ (children_of _) |- _ => destruct K end].
  cbn. split; [plains|]. split; [intros s [<-|[]]; plains|unfold members_differ; cbn; nodup].
Qed.

(** C45 finding: the graph server refuses connections that close a cycle, but a cycle through a
    boundary is not one among the connections made: a message then goes round for ever. *)
Theorem C45_relays_hide_a_cycle_refuted :
  exists cs conns ctx, well_named [] cs /\ setup None cs conns [] false = SetupOk ctx /\
    (exists a b, direct [] cs conns a b /\ reaches (direct [] cs conns) b a) /\
    (exists a b, In (a, b) (connections ctx) /\
                 reaches (fun x y => In (x, y) (connections ctx) \/ relays [] cs x y) b a) /\
    (forall a b, In (a, b) (connections ctx) -> ~ reaches (fun x y => In (x, y) (connections ctx)) b a).
Proof.
  exists loop_system, [(ch 84, [65; 47; 73]%N)]. eexists. split; [exact loop_well_named|]. split; [vm_compute; reflexivity|]. cbn [connections].
  assert (D1 : direct [] loop_system [(ch 84, [65; 47; 73]%N)] (ch 84) [65; 47; 73]%N) by (left; left; reflexivity).
  assert (Hc : holds [] loop_system ([], CollC (ch 65) [(ch 73, InputRelay)] [] [] [(Inner [ch 73], Topic (ch 84))])) by (apply holds_here; left; reflexivity).
  split; [|split].
  - exists (ch 84), [65; 47; 73]%N. split; [exact D1|]. eapply reaches_step; [|constructor]. right.
    do 8 eexists. split; [exact Hc|]. split; [reflexivity|]. split; [left; reflexivity|]. split; reflexivity.
  - exists (ch 84), [65; 47; 73]%N. split; [left; reflexivity|].
    eapply reaches_step; [left; right; right; left; reflexivity|].
    eapply reaches_step; [right; exists ([], CollC (ch 65) [(ch 73, InputRelay)] [] [] [(Inner [ch 73], Topic (ch 84))]), (ch 73, InputRelay), (relay_in_prefix ++ ch 73);
      split; [split; [exact Hc|]; split; [cbn; eauto 10|]; split; [left; reflexivity|reflexivity]|]; split; reflexivity|].
    eapply reaches_step; [left; right; left; reflexivity|constructor].
  - match goal with |- forall a b, In (a, b) ?l -> _ => set (es := l) end.
    set (rank := fun t : pystr => if eqd t (ch 84) then 2 else if eqd t [65; 47; 73]%N then 1 else if eqd t (join [ch 65; relay_in_prefix ++ ch 73; INPUT]) then 0 else 3).
    assert (R : forall a b, In (a, b) es -> rank b < rank a).
    { intros a b I. unfold es in I. destruct I as [I|[I|[I|[]]]]; injection I as <- <-; vm_compute; lia. }
    intros a b I K. assert (L : forall x y, reaches (fun x y => In (x, y) es) x y -> rank y <= rank x).
    { induction 1 as [x|x y z E H IH]; [lia|]. specialize (R _ _ E). lia. }
    specialize (R _ _ I). specialize (L _ _ K). lia.
Qed.
Print Assumptions C45_relays_hide_a_cycle_refuted.

(** C45 finding: with direct topics a subscriber gets a message once however many ways lead to it.
    Relay units publish: when two boundaries lead from one topic to another, both relay units get
    what is published to the first and publish it to the second. *)
Definition parallel_coll : comp :=
  CollC (ch 65) [(ch 73, InputRelay); (ch 74, InputRelay)] [UnitC (ch 85) [(ch 73, Plain)] false []] []
        [(Inner [ch 73], Inner [ch 85; ch 73]); (Inner [ch 74], Inner [ch 85; ch 73])].

(** C45 finding: a message published once is delivered twice where two boundaries lead the same way. *)
Theorem C45_parallel_boundaries_deliver_twice_refuted :
  exists cs conns ctx a b r1 s1 r2 s2,
    well_named [] cs /\ setup None cs conns [] false = SetupOk ctx /\
    ordinary [] cs a /\ ordinary [] cs b /\ reaches (direct [] cs conns) a b /\
    relays [] cs r1 s1 /\ relays [] cs r2 s2 /\ r1 <> r2 /\ s1 <> s2 /\
    (forall r, r = r1 \/ r = r2 -> reaches (fun x y => In (x, y) (connections ctx)) a r) /\
    (forall s, s = s1 \/ s = s2 -> reaches (fun x y => In (x, y) (connections ctx)) s b).
Proof.
  exists [parallel_coll], [(ch 84, [65; 47; 73]%N); (ch 84, [65; 47; 74]%N)]. eexists.
  exists (ch 84), [65; 47; 85; 47; 73]%N,
    (join [ch 65; relay_in_prefix ++ ch 73; INPUT]), (join [ch 65; relay_in_prefix ++ ch 73; OUTPUT]),
    (join [ch 65; relay_in_prefix ++ ch 74; INPUT]), (join [ch 65; relay_in_prefix ++ ch 74; OUTPUT]).
  assert (H : forall y, holds [] [parallel_coll] y -> y = ([], parallel_coll) \/ y = ([ch 65], UnitC (ch 85) [(ch 73, Plain)] false [])).
  { intros y H. apply In_preorder in H. cbn in H. destruct H as [<-|[<-|[]]]; auto. }
  assert (O : forall t, length t <= 6 -> ordinary [] [parallel_coll] t).
  { intros t L a b (y & s & n & (Hy & (m & ss & ds & l & net & Sy) & I & K) & -> & ->). apply H in Hy. destruct Hy as [->| ->]; [|discriminate Sy].
    destruct I as [<-|[<-|[]]]; cbn in K; subst n; split; intros ->; vm_compute in L; lia. }
  assert (Hc : holds [] [parallel_coll] ([], parallel_coll)) by (apply holds_here; left; reflexivity).
  split; [|split; [vm_compute; reflexivity|]].
  { split; [intros n []|]. split; [cbn; nodup|]. intros y Hy. apply H in Hy.
    destruct Hy as [->| ->]; cbn; (split; [plains|]; split; [intros s I; cbn in I; intuition subst; plains|unfold members_differ; cbn; nodup]). }
  split; [apply O; cbn; lia|]. split; [apply O; cbn; lia|]. cbn [connections]. split; [|split; [|split; [|split; [|split; [|split]]]]].
  - eapply reaches_step; [left; left; reflexivity|]. eapply reaches_step; [|constructor]. right.
    exists ([], parallel_coll). do 5 eexists. exists (Inner [ch 73]), (Inner [ch 85; ch 73]). split; [exact Hc|]. split; [reflexivity|].
    split; [left; reflexivity|]. split; reflexivity.
  - exists ([], parallel_coll), (ch 73, InputRelay), (relay_in_prefix ++ ch 73). split; [|split; reflexivity].
    split; [exact Hc|]. split; [cbn; unfold parallel_coll; eauto 10|]. split; [left; reflexivity|reflexivity].
  - exists ([], parallel_coll), (ch 74, InputRelay), (relay_in_prefix ++ ch 74). split; [|split; reflexivity].
    split; [exact Hc|]. split; [cbn; unfold parallel_coll; eauto 10|]. split; [right; left; reflexivity|reflexivity].
  - discriminate.
  - discriminate.
  - intros r [->| ->].
    + eapply reaches_step; [left; reflexivity|]. eapply reaches_step; [do 4 right; left; reflexivity|constructor].
    + eapply reaches_step; [right; left; reflexivity|]. eapply reaches_step; [do 5 right; left; reflexivity|constructor].
  - intros s [->| ->].
    + eapply reaches_step; [do 2 right; left; reflexivity|constructor].
    + eapply reaches_step; [do 3 right; left; reflexivity|constructor].
Qed.
Print Assumptions C45_parallel_boundaries_deliver_twice_refuted.

(** C45 finding: setting up adds the relay units to the components given, so the same components
    cannot be set up a second time. *)
Theorem C45_second_setup_fails_refuted :
  exists cs cs' ctx, well_named [] cs /\ add_relays_all cs = Some cs' /\
    setup None cs [] [] true = SetupOk ctx /\ setup None cs' [] [] true = SetupError.
Proof.
  exists loop_system. do 2 eexists. split; [exact loop_well_named|]. split; [vm_compute; reflexivity|]. split; vm_compute; reflexivity.
Qed.
Print Assumptions C45_second_setup_fails_refuted.
