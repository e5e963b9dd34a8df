(** Nothing is kept back for no reason: in schedules without the incidents named in PubSubSpec.v, a buffer the
    publisher counts as used by a channel is one this channel has not answered for, and a message the channel
    keeps is one some subscriber holds. *)
From Coq Require Import List ZArith Arith Bool Lia.
From Verif Require Import BackpressureModel BackpressureProofs CacheModel CacheProofs TransportModel PubSubModel PubSubSpec PubSubInv PubSubSub PubSubSteps PubSubSteps2 PubSubSteps3 PubSubSteps4 PubSubSteps5.
Import ListNotations.

Section Live.
Context {Obj : Type}.
Variable cfg : config.
Hypothesis W : wf cfg.
Notation st := (st Obj).
Notation pubst := (pubst Obj).
Notation chst := (chst Obj).
Notation sbst := (sbst Obj).
Notation nb := (nb cfg).
Notation pubof := (pubof cfg).
Notation pend := (pend cfg).
Notation is_local := (is_local cfg).
Notation is_shm := (is_shm cfg).
Notation FInv := (FInv cfg).
Implicit Types x y z : st.
Implicit Types P : pubst.
Implicit Types C : chst.
Implicit Types o : Obj.
Implicit Types h : handle Obj.

Record LI (ex : nat -> nat -> Prop) x : Prop := {
  i_bp : forall c, c_up (chs x c) = true -> bp_inv (nb c) (c_bp (chs x c));
  i_cg : forall c, c_up (chs x c) = true -> cgood (nb c) (c_cache (chs x c));
  i_in : forall p u b, held_in (p_bp (pubs x p)) u b -> In u (p_chans (pubs x p));
  i_owed : forall c b, c_up (chs x c) = true -> held_in (p_bp (pubs x (pubof c))) c b -> exists m, owed (chs x c) m /\ m mod nb c = b;
  i_has : forall c m h, c_up (chs x c) = true -> cached (chs x c) m h -> ex c m \/ exists u, held_in (c_bp (chs x c)) u (m mod nb c);
  i_uni : forall c i h s m, c_up (chs x c) = true -> cached (chs x c) i h -> pend x s c m -> i mod nb c = m mod nb c -> i = m;
  i_conn : forall s p c, s_chan (sbs x s) p = Some c -> pubof c = p }.

Lemma rel_cases C P (ow : bool) c b m s n : cgood n (c_cache C) ->
  let bp' := bp_free s (Some b) (c_bp C) in
  (rel_chan C ow b m s = with_cbp C bp' /\ rel_pub P C ow c b m s = P /\ (bp_available bp' b = Some true -> cache_get (c_cache C) m = None)) \/
  (bp_available bp' b = Some true /\ ow = true /\ rel_chan C ow b m s = with_cache (with_cbp C bp') (fst (cache_release (c_cache C) m)) /\
     rel_pub P C ow c b m s = with_bp P (bp_free c (Some b) (p_bp P))) \/
  (bp_available bp' b = Some true /\ ow = false /\
     rel_chan C ow b m s = with_ackw (with_cache (with_cbp C bp') (fst (cache_release (c_cache C) m))) (c_ackw C ++ [m]) /\
     rel_pub P C ow c b m s = P).
Proof.
  intros G bp'. pose proof (release_ok n (c_cache C) m G) as R.
  unfold rel_chan, rel_pub. cbn zeta. cbn [c_bp with_cbp c_cache c_ackw]. fold bp'.
  destruct (bp_available bp' b) as [[|]|] eqn:Av; try (left; repeat split; congruence).
  destruct (cache_release (c_cache C) m) as [k [|]] eqn:E; cbn [fst snd] in *.
  - right. destruct ow; [left|right]; repeat split.
  - left. repeat split. intros _. destruct (cache_get (c_cache C) m); [discriminate|reflexivity].
Qed.

Lemma available_dec n b i : bp_inv n b -> i < n ->
  (bp_available b i = Some true /\ forall u, ~ held_in b u i) \/ (bp_available b i = Some false /\ exists u, held_in b u i).
Proof.
  intros I Hi. destruct (empty_iff n b i I Hi) as (l & E & H). destruct (inv_buf _ _ I l (nth_error_In _ _ E)) as [H1 _].
  unfold bp_available. rewrite E. destruct (empty l) eqn:El; [left|right]; split; auto; [now apply H|].
  destruct (leases l) as [|u t] eqn:Q; [assert (false = true) by (now apply H1); discriminate|]. exists u, l. split; [exact E|]. rewrite Q. now left.
Qed.

Lemma owed_keep C C' i : (In i (map fid (c_wire C)) -> In i (map fid (c_wire C'))) -> c_re C' = c_re C ->
  (forall h, cached C i h -> cached C' i h) -> (In i (c_ackw C) -> In i (c_ackw C')) -> owed C i -> owed C' i.
Proof.
  intros A B D E [H|[H|[[[h H]|H]|H]]]; unfold owed, has, rem, rekeys in *; rewrite ?B; auto.
  - right; right; left; left. eauto.
Qed.

Lemma release_LI ex x c m s : LI ex x ->
  (c_up (chs x c) = true -> forall i h, cached (chs x c) i h -> i mod nb c = m mod nb c -> held_in (c_bp (chs x c)) s (m mod nb c) -> i = m) ->
  LI ex (release cfg x c m s).
Proof.
  intros L Hm. pose proof (core_release cfg x c m s) as K. set (y := release cfg x c m s) in *.
  assert (Ec : forall d, d <> c -> chs y d = chs x d).
  { intros d N. unfold y. rewrite release_chs. destruct (Nat.eqb_spec d c); [contradiction|reflexivity]. }
  assert (Es : sbs y = sbs x) by apply release_sbs.
  assert (Ep : forall p u b, held_in (p_bp (pubs y p)) u b -> held_in (p_bp (pubs x p)) u b).
  { intros p u b. unfold y. rewrite release_pubs. destruct (Nat.eqb_spec p (pubof c)) as [->|_]; [|auto].
    destruct (rel_pub_bp (pubs x (pubof c)) (chs x c) (own cfg c) c (slot_of cfg (pubof c) m) m s) as [E|E]; rewrite E; [auto|].
    cbn. rewrite held_free. tauto. }
  assert (Eq : forall p, p_chans (pubs y p) = p_chans (pubs x p)) by (intros p; now rewrite (k_pub _ _ K p)).
  destruct (c_up (chs x c)) eqn:Up.
  2:{ (* the channel is down *)
    assert (Upd : forall d, c_up (chs y d) = true -> d <> c) by (intros d H ->; rewrite (k_up _ _ K) in H; congruence).
    constructor; intros.
    - rewrite Ec in * by (now apply Upd). now apply (i_bp _ _ L).
    - rewrite Ec in * by (now apply Upd). now apply (i_cg _ _ L).
    - rewrite Eq. eapply (i_in _ _ L); eauto.
    - pose proof (Upd _ H). rewrite Ec in * by auto. apply (i_owed _ _ L); auto.
    - pose proof (Upd _ H). rewrite Ec in * by auto. eapply (i_has _ _ L); eauto.
    - pose proof (Upd _ H). rewrite Ec in * by auto. eapply (i_uni _ _ L); eauto. unfold PubSubSub.pend in *. now rewrite Es in *.
    - rewrite Es in *. eapply (i_conn _ _ L); eauto. }
  specialize (Hm eq_refl). pose proof (i_cg _ _ L c Up) as G. pose proof (i_bp _ _ L c Up) as B. pose proof (nb_pos cfg W c) as Hn.
  set (b := m mod nb c) in *.
  assert (Yc : chs y c = rel_chan (chs x c) (own cfg c) b m s).
  { unfold y. rewrite release_chs, Nat.eqb_refl. reflexivity. }
  assert (Yp : pubs y (pubof c) = rel_pub (pubs x (pubof c)) (chs x c) (own cfg c) c b m s).
  { unfold y. rewrite release_pubs, Nat.eqb_refl. reflexivity. }
  pose proof (rel_cases (chs x c) (pubs x (pubof c)) (own cfg c) c b m s (nb c) G) as Cs. cbn zeta in Cs.
  set (bp' := bp_free s (Some b) (c_bp (chs x c))) in *. rewrite <- Yc, <- Yp in Cs.
  assert (Ybp : c_bp (chs y c) = bp'). { destruct Cs as [(E & _)|[(_ & _ & E & _)|(_ & _ & E & _)]]; now rewrite E. }
  assert (Yca : c_cache (chs y c) = c_cache (chs x c) \/ c_cache (chs y c) = fst (cache_release (c_cache (chs x c)) m)).
  { destruct Cs as [(E & _)|[(_ & _ & E & _)|(_ & _ & E & _)]]; rewrite E; auto. }
  assert (Bp' : bp_inv (nb c) bp') by (now apply bp_free_inv).
  assert (Yget : forall i h, cached (chs y c) i h -> cached (chs x c) i h).
  { intros i h. unfold cached. destruct Yca as [-> | ->]; [auto|]. rewrite (get_release (nb c)) by auto. destruct (Nat.eqb m i); [discriminate|auto]. }
  assert (Oth : forall i, i <> m -> owed (chs x c) i -> owed (chs y c) i).
  { intros i N. apply owed_keep.
    - now rewrite (k_wire _ _ K).
    - apply (k_re _ _ K).
    - intros h. unfold cached. destruct Yca as [-> | ->]; [auto|]. rewrite (get_release (nb c)) by auto. destruct (Nat.eqb_spec m i); [congruence|auto].
    - destruct Cs as [(E & _)|[(_ & _ & E & _)|(_ & _ & E & _)]]; rewrite E; cbn; auto. intros H. apply in_or_app. auto. }
  constructor.
  - intros d Ud. destruct (Nat.eq_dec d c) as [->|N]; [now rewrite Ybp|]. rewrite Ec in * by auto. now apply (i_bp _ _ L).
  - intros d Ud. destruct (Nat.eq_dec d c) as [->|N]; [|rewrite Ec in * by auto; now apply (i_cg _ _ L)].
    destruct Yca as [-> | ->]; [exact G|]. now apply cgood_release.
  - intros p u j H. rewrite Eq. eapply (i_in _ _ L); eauto.
  - intros d j Ud Hh. destruct (Nat.eq_dec d c) as [->|N].
    2:{ rewrite Ec in * by auto. apply (i_owed _ _ L); auto. }
    destruct (i_owed _ _ L c j Up (Ep _ _ _ Hh)) as (i & Oi & Ei).
    destruct (Nat.eq_dec i m) as [->|Ni]; [|exists i; auto].
    destruct Cs as [(E1 & E2 & _)|[(_ & _ & E1 & E2)|(_ & _ & E1 & E2)]].
    + exists m. split; [|exact Ei]. rewrite E1. exact Oi.
    + exfalso. rewrite E2 in Hh. cbn in Hh. apply held_free in Hh. destruct Hh as [Hx _]. apply Hx. split; [reflexivity|]. subst j. reflexivity.
    + exists m. split; [|exact Ei]. rewrite E1. right; right; right. cbn. apply in_or_app. right. now left.
  - intros d i h Ud Hc. destruct (Nat.eq_dec d c) as [->|N]; [|rewrite Ec in * by auto; eapply (i_has _ _ L); eauto].
    pose proof (Yget _ _ Hc) as Hx. destruct (i_has _ _ L c i h Up Hx) as [He|[u Hu]]; [auto|]. right. rewrite Ybp.
    destruct (Nat.eq_dec (i mod nb c) b) as [Eb|Nb].
    2:{ exists u. apply held_free. split; [|exact Hu]. intros [_ Q]. congruence. }
    destruct (available_dec _ _ b Bp' (mod_lt _ _ Hn)) as [[Av Fr]|[_ [v Hv]]]; [|exists v; rewrite Eb; exact Hv].
    exfalso. assert (Eu : u = s).
    { destruct (Nat.eq_dec u s); [auto|]. exfalso. apply (Fr u). apply held_free. split; [intros [? _]; contradiction|]. now rewrite <- Eb. }
    subst u. assert (i = m) by (apply (Hm i h); auto; now rewrite <- Eb). subst i.
    destruct Cs as [(E1 & _ & E3)|[(_ & _ & E1 & _)|(_ & _ & E1 & _)]].
    + specialize (E3 Av). unfold cached in Hx. congruence.
    + rewrite E1 in Hc. unfold cached in Hc. cbn in Hc. rewrite (get_release (nb c)) in Hc by auto. rewrite Nat.eqb_refl in Hc. discriminate.
    + rewrite E1 in Hc. unfold cached in Hc. cbn in Hc. rewrite (get_release (nb c)) in Hc by auto. rewrite Nat.eqb_refl in Hc. discriminate.
  - intros d i h t k Ud Hc Hp. unfold PubSubSub.pend in Hp. rewrite Es in Hp.
    destruct (Nat.eq_dec d c) as [->|N]; [|rewrite Ec in * by auto; eapply (i_uni _ _ L); eauto].
    eapply (i_uni _ _ L); eauto.
  - intros t p d. rewrite Es. apply (i_conn _ _ L).
Qed.

(** A change of subscriber records that adds no holds. *)
Lemma LI_sub ex x y : pubs y = pubs x -> chs y = chs x -> (forall s c m, pend y s c m -> pend x s c m) ->
  (forall s p c, s_chan (sbs y s) p = Some c -> pubof c = p) -> LI ex x -> LI ex y.
Proof.
  intros E1 E2 E3 E4 L. constructor; rewrite ?E1, ?E2; try apply L; auto.
  intros. eapply (i_uni _ _ L); eauto.
Qed.

Lemma drop_LI ex x s : LI ex x -> LI ex (drop_oldest cfg x s).
Proof.
  intros L. unfold drop_oldest. destruct (s_queue (sbs x s)) as [|[p m] q] eqn:Q; [exact L|].
  set (y := setS x s (log_ev (with_queue (sbs x s) q) p (EDrop m))).
  assert (Ey : s_chan (sbs y s) = s_chan (sbs x s)) by (unfold y; cbn; now rewrite upd_same).
  assert (Ly : LI ex y).
  { apply LI_sub with (x := x); auto.
    - intros t c k. unfold PubSubSub.pend, y. cbn. unfold upd. destruct (Nat.eqb_spec t s) as [->|]; [|auto]. cbn. rewrite Q.
      intros [A [B|B]]; split; auto. left. now right.
    - intros t p' c. unfold y. cbn. unfold upd. destruct (Nat.eqb_spec t s) as [->|]; apply (i_conn _ _ L). }
  cbn zeta. fold y. rewrite Ey. destruct (s_chan (sbs x s) p) as [c|] eqn:Ch; [|exact Ly].
  apply release_LI; [exact Ly|]. intros Up i h Hc Ei _. assert (Ep : pubof c = p) by (eapply (i_conn _ _ L); eauto).
  eapply (i_uni _ _ L c i h s m); eauto. split; [now rewrite Ep|]. left. rewrite Q, Ep. now left.
Qed.

Definition alone x c m : Prop := c_up (chs x c) = true -> forall i h, cached (chs x c) i h -> i mod nb c = m mod nb c -> i = m.

Lemma release_cached ex x c m s d i h : LI ex x -> c_up (chs x d) = true -> cached (chs (release cfg x c m s) d) i h -> cached (chs x d) i h.
Proof.
  intros L Ud. rewrite release_chs. destruct (Nat.eqb_spec d c) as [->|_]; [|auto]. pose proof (i_cg _ _ L c Ud) as G.
  destruct (rel_cases (chs x c) (pubs x (pubof c)) (own cfg c) c (slot_of cfg (pubof c) m) m s (nb c) G) as [(E & _)|[(_ & _ & E & _)|(_ & _ & E & _)]];
    rewrite E; unfold cached; cbn; auto; rewrite (get_release (nb c)) by (auto using nb_pos); destruct (Nat.eqb m i); auto; discriminate.
Qed.

Lemma drop_cached ex x s d i h : LI ex x -> c_up (chs x d) = true -> cached (chs (drop_oldest cfg x s) d) i h -> cached (chs x d) i h.
Proof.
  intros L Ud. unfold drop_oldest. destruct (s_queue (sbs x s)) as [|[p m] q] eqn:Q; [auto|]. cbn zeta.
  destruct (s_chan _ p) as [c|]; [|auto].
  rewrite release_chs. cbn [chs setS]. destruct (Nat.eqb_spec d c) as [->|_]; [|auto].
  pose proof (release_cached ex x c m s c i h L Ud) as R. rewrite release_chs, Nat.eqb_refl in R. exact R.
Qed.

Lemma push_LI ex x s c m : LI ex x -> s_chan (sbs x s) (pubof c) = Some c -> alone x c m ->
  LI ex (push cfg x s (pubof c) m) /\ alone (push cfg x s (pubof c) m) c m.
Proof.
  intros L Hs Al. unfold push. cbn zeta. set (z := if queue_full cfg x s then drop_oldest cfg x s else x).
  assert (Lz : LI ex z) by (unfold z; destruct (queue_full cfg x s); auto using drop_LI).
  assert (Kz : core x z) by (unfold z; destruct (queue_full cfg x s); auto using drop_oldest_core, core_refl).
  assert (Sz : s_chan (sbs z s) (pubof c) = Some c).
  { unfold z. destruct (queue_full cfg x s); [|exact Hs]. now rewrite (proj1 (drop_oldest_self cfg x s)). }
  assert (Az : alone z c m).
  { intros Up i h Hc. rewrite (k_up _ _ Kz) in Up. apply (Al Up i h). revert Hc. unfold z. destruct (queue_full cfg x s); [|auto].
    apply (drop_cached ex); auto. }
  split; [|exact Az].
  constructor; cbn; try apply Lz.
  - intros d i h t k Ud Hc Hp Ei. unfold PubSubSub.pend in Hp. cbn in Hp. unfold upd in Hp. destruct (Nat.eqb_spec t s) as [->|Nt].
    2:{ eapply (i_uni _ _ Lz); eauto. }
    cbn in Hp. destruct Hp as [Hd [Hq|Hr]]; [|apply (i_uni _ _ Lz d i h s k); auto; split; auto].
    apply in_app_or in Hq. destruct Hq as [Hq|[Hq|[]]]; [apply (i_uni _ _ Lz d i h s k); auto; split; auto|].
    injection Hq as E1 E2. subst k. assert (d = c) by congruence. subst d. eapply Az; eauto.
  - intros t p d. unfold upd. destruct (Nat.eqb_spec t s) as [->|]; cbn; apply (i_conn _ _ Lz).
Qed.

Lemma push_chan x s p m t : s_chan (sbs (push cfg x s p m) t) = s_chan (sbs x t).
Proof.
  unfold push. cbn. unfold upd. destruct (Nat.eqb_spec t s) as [->|N].
  - cbn. destruct (queue_full cfg x s); [|reflexivity]. apply (proj1 (drop_oldest_self cfg x s)).
  - destruct (queue_full cfg x s); [|reflexivity]. now rewrite drop_oldest_other.
Qed.

Lemma notify1_LI ex x s c m : LI ex x -> s_chan (sbs x s) (pubof c) = Some c -> alone x c m ->
  LI ex (notify1 cfg c m x s) /\ alone (notify1 cfg c m x s) c m.
Proof.
  intros L Hs Al. unfold notify1. cbn zeta.
  set (y := setC x c (with_cbp (chs x c) (bp_lease s (slot_of cfg (pubof c) m) (c_bp (chs x c))))).
  apply push_LI; [|exact Hs|].
  - constructor; unfold y; cbn; try apply L; intros d; unfold upd; destruct (Nat.eqb_spec d c) as [->|N]; cbn; try apply L.
    + intros Up. apply bp_lease_inv, (i_bp _ _ L); auto.
    + intros i h Up Hc. destruct (i_has _ _ L c i h Up Hc) as [?|[u Hu]]; [auto|]. right. exists u. apply held_lease. auto.
  - intros Up i h. unfold y. cbn. rewrite upd_same. cbn. apply (Al). revert Up. unfold y. cbn. now rewrite upd_same.
Qed.

Lemma notify1_chan x s c m t : s_chan (sbs (notify1 cfg c m x s) t) = s_chan (sbs x t).
Proof. unfold notify1. cbn zeta. now rewrite push_chan. Qed.

Lemma notify_LI ex c m l : forall x, LI ex x -> (forall s, In s l -> s_chan (sbs x s) (pubof c) = Some c) -> alone x c m ->
  LI ex (fold_left (notify1 cfg c m) l x) /\ alone (fold_left (notify1 cfg c m) l x) c m.
Proof.
  induction l as [|s l IH]; intros x L Hs Al; cbn; [auto|].
  destruct (notify1_LI ex x s c m L (Hs s (or_introl eq_refl)) Al) as [L' A']. apply IH; auto.
  intros t Ht. rewrite notify1_chan. apply Hs. now right.
Qed.

Lemma LI_ex (ex ex' : nat -> nat -> Prop) x : (forall c m h, c_up (chs x c) = true -> cached (chs x c) m h -> ex c m -> ex' c m \/ exists u, held_in (c_bp (chs x c)) u (m mod nb c)) ->
  LI ex x -> LI ex' x.
Proof. intros H L. constructor; try apply L. intros c m h U K. destruct (i_has _ _ L c m h U K); eauto. Qed.

Definition no2 (_ _ : nat) : Prop := False.

(** A message is taken in: [x] is the state with the frame removed from the connection. *)
Lemma receive_LI x c e : LI (fun d m => d = c /\ m = e_id e) (setC x c (with_cache (bump (chs x c)) (cache_put (c_cache (chs x c)) e))) ->
  (forall s, In s (c_clients (chs x c)) -> s_chan (sbs x s) (pubof c) = Some c) ->
  c_up (chs x c) = true -> cgood (nb c) (c_cache (chs x c)) ->
  LI no2 (receive cfg x c e).
Proof.
  intros L Hs Up G. pose proof (nb_pos cfg W c) as Hn. unfold receive. cbn zeta.
  set (ex := fun d m => d = c /\ m = e_id e) in *.
  set (y := setC x c (with_cache (bump (chs x c)) (cache_put (c_cache (chs x c)) e))) in *.
  assert (Al : alone y c (e_id e)).
  { intros _ i h. unfold y. cbn. rewrite upd_same. unfold cached. cbn. rewrite (get_put (nb c)) by auto.
    destruct (Nat.eqb_spec (e_id e) i); [auto|]. destruct (Nat.eqb_spec (e_id e mod nb c) (i mod nb c)); [discriminate|]. congruence. }
  unfold notify. destruct (notify_LI ex c (e_id e) (c_clients (chs y c)) y L) as [Lz Az]; [|exact Al|].
  { intros s. unfold y. cbn. rewrite upd_same. cbn. auto. }
  pose proof (core_notify_list cfg c (e_id e) (c_clients (chs y c)) y) as K.
  set (z := fold_left (notify1 cfg c (e_id e)) (c_clients (chs y c)) y) in *.
  assert (Uz : c_up (chs z c) = true) by (rewrite (k_up _ _ K); unfold y; cbn; now rewrite upd_same).
  pose proof (i_bp _ _ Lz c Uz) as Bz. pose proof (i_cg _ _ Lz c Uz) as Gz.
  unfold anyone. rewrite (slot_nb cfg). destruct (available_dec _ _ (e_id e mod nb c) Bz (mod_lt _ _ Hn)) as [[Av Fr]|[Av [u Hu]]]; rewrite Av.
  - (* nobody listens *)
    assert (Cn : forall d, d <> c -> chs (setC z c (with_ackw (with_cache (chs z c) (fst (cache_release (c_cache (chs z c)) (e_id e)))) (c_ackw (chs z c) ++ [e_id e]))) d = chs z d).
    { intros d N. cbn. now rewrite upd_other. }
    constructor; intros d.
    + destruct (Nat.eq_dec d c) as [->|N]; [cbn; rewrite upd_same; cbn; apply Lz|rewrite Cn by auto; apply Lz].
    + destruct (Nat.eq_dec d c) as [->|N]; [cbn; rewrite upd_same; cbn; intros _; now apply cgood_release|rewrite Cn by auto; apply Lz].
    + cbn. apply Lz.
    + destruct (Nat.eq_dec d c) as [->|N]; [cbn; rewrite upd_same|rewrite Cn by auto; cbn; apply Lz].
      intros b _ Hb. destruct (i_owed _ _ Lz c b Uz Hb) as (i & Oi & Ei). exists i. split; [|exact Ei].
      destruct (Nat.eq_dec i (e_id e)) as [->|Ni]; [right; right; right; cbn; apply in_or_app; right; now left|].
      revert Oi. apply owed_keep; cbn; auto.
      * intros h. unfold cached. cbn. rewrite (get_release (nb c)) by auto. destruct (Nat.eqb_spec (e_id e) i); [congruence|auto].
      * intros H. apply in_or_app. auto.
    + destruct (Nat.eq_dec d c) as [->|N]; [cbn; rewrite upd_same; cbn|rewrite Cn by auto].
      2:{ intros i h Ud Hc. destruct (i_has _ _ Lz d i h Ud Hc) as [[? _]|?]; [contradiction|auto]. }
      intros i h _ Hc. unfold cached in Hc. cbn in Hc. rewrite (get_release (nb c)) in Hc by auto.
      destruct (Nat.eqb_spec (e_id e) i) as [|Ni]; [discriminate|]. destruct (i_has _ _ Lz c i h Uz Hc) as [[_ ?]|?]; [congruence|auto].
    + destruct (Nat.eq_dec d c) as [->|N]; [cbn; rewrite upd_same; cbn|rewrite Cn by auto; apply Lz].
      intros i h s m _ Hc. unfold cached in Hc. cbn in Hc. rewrite (get_release (nb c)) in Hc by auto.
      destruct (Nat.eqb_spec (e_id e) i); [discriminate|]. intros Hp. eapply (i_uni _ _ Lz); eauto.
    + apply (i_conn _ _ Lz).
  - eapply LI_ex; [|exact Lz]. intros d i h Ud Hc [-> ->]. right. eauto.
Qed.

Record LV x : Prop := {
  v_in : forall p u b, held_in (p_bp (pubs x p)) u b -> In u (p_chans (pubs x p));
  v_owed : forall c b, c_up (chs x c) = true -> held_in (p_bp (pubs x (pubof c))) c b -> exists m, owed (chs x c) m /\ m mod nb c = b;
  v_has : forall c m h, c_up (chs x c) = true -> cached (chs x c) m h -> exists u, held_in (c_bp (chs x c)) u (m mod nb c) }.

Lemma LI_LV x : LI no2 x -> LV x.
Proof. intros L. constructor; try apply L. intros c m h U K. destruct (i_has _ _ L c m h U K) as [[]|]; auto. Qed.

Lemma has_pend_uniq x c i s m : FInv x -> c_up (chs x c) = true -> has (chs x c) i -> pend x s c m -> i mod nb c = m mod nb c -> i = m.
Proof.
  intros [[[_ B] _] _] Up Hi Hp E. destruct (B c) as [_ _ _ U]. specialize (U Up).
  destruct (u_pend _ _ _ _ _ _ _ _ _ U s m (or_introl Hp)) as (A1 & A2 & _).
  destruct (u_has _ _ _ _ _ _ _ _ _ U i Hi) as [B1 _].
  destruct (u_owed _ _ _ _ _ _ _ _ _ U i) as [B2 _]; [right; right; left; exact Hi|].
  pose proof (u_sent _ _ _ _ _ _ _ _ _ U). pose proof (nb_pos cfg W c).
  destruct (le_lt_dec i m); [|symmetry]; apply (window_mod (nb c)); auto; lia.
Qed.

Lemma FInv_LI x : FInv x -> LV x -> LI no2 x.
Proof.
  intros F V. pose proof F as [[[A B] SI] G]. constructor; try apply V.
  - intros c Up. apply (B c). apply (u_born _ _ _ _ _ _ _ _ _ (h_up _ _ _ _ _ _ _ _ _ (B c) Up)).
  - intros c Up. apply (B c). apply (u_born _ _ _ _ _ _ _ _ _ (h_up _ _ _ _ _ _ _ _ _ (B c) Up)).
  - intros c m h U K. right. eapply (v_has _ V); eauto.
  - intros c i h s m Up K Hp E. eapply has_pend_uniq; eauto. left. eauto.
  - intros s p c Hc. apply (b_conn _ _ _ _ _ (proj1 SI s) p c Hc).
Qed.

Lemma LV_mono x y :
  (forall p, p_bp (pubs y p) = p_bp (pubs x p)) -> (forall p, p_chans (pubs y p) = p_chans (pubs x p)) ->
  (forall c, c_up (chs y c) = true -> c_up (chs x c) = true /\ (forall m, owed (chs x c) m -> owed (chs y c) m) /\
     (forall m h, cached (chs y c) m h -> exists u, held_in (c_bp (chs y c)) u (m mod nb c))) ->
  LV x -> LV y.
Proof.
  intros E1 E2 E3 V. constructor.
  - intros p u b. rewrite E1, E2. apply (v_in _ V).
  - intros c b Up. rewrite E1. intros H. destruct (E3 c Up) as (U & O & _). destruct (v_owed _ V c b U H) as (m & Om & Em). eauto.
  - intros c m h Up K. destruct (E3 c Up) as (U & O & Q). eauto.
Qed.

Lemma LV_pub x p P' : p_bp P' = p_bp (pubs x p) -> p_chans P' = p_chans (pubs x p) -> LV x -> LV (setP x p P').
Proof.
  intros E1 E2 V. apply (LV_mono x); auto.
  - intros q. cbn. unfold upd. destruct (Nat.eqb_spec q p) as [->|]; auto.
  - intros q. cbn. unfold upd. destruct (Nat.eqb_spec q p) as [->|]; auto.
  - intros c Up. refine (conj Up (conj (fun _ H => H) _)). cbn. intros m h K. eapply (v_has _ V); eauto.
Qed.

Lemma next_channel_LV x p o todo : LV x -> LV (next_channel cfg x p o todo).
Proof.
  intros V. destruct todo as [|c t]; cbn [next_channel].
  - apply LV_pub; auto.
  - cbn zeta. assert (V' : LV (write_frame cfg x p c o)).
    { apply (LV_mono x); auto. intros d. unfold write_frame. cbn. unfold upd. destruct (Nat.eqb_spec d c) as [->|N]; cbn; intros Up.
      - refine (conj Up (conj _ (fun m h K => v_has _ V c m h Up K))). intros m. apply owed_keep; cbn; auto.
        intros H. rewrite map_app. apply in_or_app. auto.
      - refine (conj Up (conj (fun _ H => H) (fun m h K => v_has _ V d m h Up K))). }
    apply LV_pub; auto.
Qed.

Lemma put_local_LV x c m o : LI no2 x -> In c (p_chans (pubs x (pubof c))) ->
  (forall s, In s (c_clients (chs x c)) -> s_chan (sbs x s) (pubof c) = Some c) -> alone x c m -> LV (put_local cfg x c m o).
Proof.
  intros L Hin Hs Al. pose proof (nb_pos cfg W c) as Hn. unfold put_local. cbn zeta. set (y := setC x c (bump (chs x c))).
  assert (Ly : LI no2 y).
  { constructor; unfold y; cbn; try apply L; intros d; unfold upd; destruct (Nat.eqb_spec d c) as [->|]; apply L. }
  assert (Ay : alone y c m).
  { intros Up i h. unfold y in *. cbn in *. rewrite upd_same in *. apply Al. exact Up. }
  unfold notify. destruct (notify_LI no2 c m (c_clients (chs y c)) y Ly) as [Lz Az]; [|exact Ay|].
  { intros s. unfold y. cbn. rewrite upd_same. cbn. auto. }
  pose proof (core_notify_list cfg c m (c_clients (chs y c)) y) as K.
  set (z := fold_left (notify1 cfg c m) (c_clients (chs y c)) y) in *.
  assert (Hz : In c (p_chans (pubs z (pubof c)))) by (rewrite (k_pub _ _ K); exact Hin).
  destruct (anyone cfg z c m) eqn:An; [|now apply LI_LV]. constructor.
  - intros p u b. cbn. unfold upd. destruct (Nat.eqb_spec p (pubof c)) as [->|]; [|apply Lz]. cbn. intros H. apply held_lease in H.
    destruct H as [(-> & _ & _)|H]; [exact Hz|eapply (i_in _ _ Lz); eauto].
  - intros d b. destruct (Nat.eq_dec d c) as [->|N].
    + cbn. rewrite !upd_same. cbn. intros Up. pose proof (i_cg _ _ Lz c Up) as G. intros H. apply held_lease in H.
      assert (Om : owed (with_cache (chs z c) (cache_put (c_cache (chs z c)) {| e_obj := Val o; e_id := m; e_mem := None |})) m).
      { right; right; left; left. exists (Val o). unfold cached. cbn. rewrite (get_put (nb c)) by auto. cbn. now rewrite Nat.eqb_refl. }
      destruct H as [(_ & -> & _)|H]; [exists m; split; [exact Om|reflexivity]|].
      destruct (i_owed _ _ Lz c b Up H) as (i & Oi & Ei).
      destruct (Nat.eq_dec (m mod nb c) (i mod nb c)) as [E|Ne]; [exists m; split; [exact Om|congruence]|].
      exists i. split; [|exact Ei]. revert Oi. apply owed_keep; cbn; auto.
      intros h Hc. unfold cached in *. cbn. rewrite (get_put (nb c)) by auto. cbn. destruct (Nat.eqb_spec m i); [congruence|].
      destruct (Nat.eqb_spec (m mod nb c) (i mod nb c)); [contradiction|exact Hc].
    + cbn. rewrite upd_other by auto. intros Up H. apply (i_owed _ _ Lz d b Up). revert H. unfold upd.
      destruct (Nat.eqb_spec (pubof d) (pubof c)) as [E|]; [|auto]. cbn. intros H. apply held_lease in H. rewrite E.
      destruct H as [(-> & _ & _)|H]; [contradiction|exact H].
  - intros d i h. cbn. unfold upd. destruct (Nat.eqb_spec d c) as [->|N]; cbn; intros Up Hc.
    2:{ destruct (i_has _ _ Lz d i h Up Hc) as [[]|]; auto. }
    pose proof (i_cg _ _ Lz c Up) as G. unfold cached in Hc. cbn in Hc. rewrite (get_put (nb c)) in Hc by auto. cbn in Hc.
    destruct (Nat.eqb_spec m i) as [->|Ni].
    + unfold anyone in An. rewrite (slot_nb cfg) in An. destruct (available_dec _ _ (i mod nb c) (i_bp _ _ Lz c Up) (mod_lt _ _ Hn)) as [[Av _]|[_ Q]]; [|exact Q].
      rewrite Av in An. discriminate.
    + destruct (Nat.eqb_spec (m mod nb c) (i mod nb c)); [discriminate|]. destruct (i_has _ _ Lz c i h Up Hc) as [[]|]; auto.
Qed.

Lemma start_LV x p o grow : FInv x -> LV x -> busy (p_phase (pubs x p)) = 0 ->
  bp_available (p_bp (pubs x p)) (slot_of cfg p (p_nxt (pubs x p))) = Some true -> LV (start cfg x p o grow).
Proof.
  intros F V Hb Av. pose proof F as [[[A B] SI] G]. unfold start. cbn zeta.
  set (y := setP x p _).
  assert (Vy : LV y) by (unfold y; apply LV_pub; auto).
  set (z := match find is_local (p_chans (pubs x p)) with Some c => put_local cfg y c (p_nxt (pubs x p)) o | None => y end).
  assert (Vz : LV z).
  { unfold z. destruct (find is_local (p_chans (pubs x p))) as [c|] eqn:Fd; [|exact Vy]. apply find_some in Fd. destruct Fd as [Hin Hl].
    destruct (g_chans _ _ _ _ (g_pc _ _ _ _ (G p)) c Hin) as [Ep _]. pose proof (FInv_LI x F V) as L.
    apply put_local_LV.
    - constructor; try apply Vy; try apply L.
    - unfold y. cbn. rewrite Ep, upd_same. exact Hin.
    - intros s. apply (proj1 (proj2 SI)).
    - intros Up i h Hc E. exfalso. destruct (B c) as [_ _ _ U]. specialize (U Up).
      destruct (u_owed _ _ _ _ _ _ _ _ _ U i) as [_ [H|H]]; [right; right; left; left; exists h; exact Hc| |].
      + rewrite Ep, E in H. replace (p_nxt (pubs x p) mod nb c) with (slot_of cfg p (p_nxt (pubs x p))) in H by (unfold slot_of, PubSubInv.nb; now rewrite Ep).
        apply (proj1 (available_inv _ _ _ (A p) (mod_lt _ _ (wf_nbuf _ W p))) Av c). exact H.
      + unfold exc_of in H. rewrite Ep in H. destruct (p_phase (pubs x p)); try contradiction. cbn in Hb. lia. }
  destruct (existsb _ _); [destruct grow|].
  - apply LV_pub; auto.
  - apply next_channel_LV. unfold write_slot. apply LV_pub; auto.
  - now apply next_channel_LV.
Qed.

Lemma try_send_LV x p o grow : FInv x -> LV x -> busy (p_phase (pubs x p)) = 0 -> LV (try_send cfg x p o grow).
Proof.
  intros F V Hb. unfold try_send. cbn zeta. destruct (bp_available _ _) as [[|]|] eqn:Av; try (apply LV_pub; auto; fail). now apply start_LV.
Qed.

(** Publisher unchanged, one channel replaced. *)
Lemma LV_chan x c C' : LV x -> (c_up C' = true -> c_up (chs x c) = true /\ (forall m, owed (chs x c) m -> owed C' m) /\
     (forall m h, cached C' m h -> exists u, held_in (c_bp C') u (m mod nb c))) -> LV (setC x c C').
Proof.
  intros V H. apply (LV_mono x); auto. intros d. cbn. unfold upd. destruct (Nat.eqb_spec d c) as [->|N]; [exact H|].
  intros Up. refine (conj Up (conj (fun _ H => H) (fun m h K => v_has _ V d m h Up K))).
Qed.

(** Taking in a frame; [C1] is the record of [c] without the frame. *)
Lemma receive_LV x C1 c e : FInv x -> LV x ->
  c_up (chs x c) = true -> c_up C1 = true -> c_clients C1 = c_clients (chs x c) -> c_bp C1 = c_bp (chs x c) -> cgood (nb c) (c_cache C1) ->
  (forall i, owed (chs x c) i -> i = e_id e \/ owed C1 i) ->
  (forall i h, cached C1 i h -> has (chs x c) i) ->
  (forall i, In i (rekeys (chs x c)) -> exists u, held_in (c_bp (chs x c)) u (i mod nb c)) ->
  (forall i s, pend x s c i -> i mod nb c <> e_id e mod nb c) ->
  LV (receive cfg (setC x c C1) c e).
Proof.
  intros F V U0 Up Ecl Ebp G Ho Hg Hre Hpe. set (x1 := setC x c C1).
  pose proof (FInv_LI _ F V) as L. pose proof F as [[[A B] SI] _]. pose proof (nb_pos cfg W c) as Hn.
  assert (Xc : chs x1 c = C1) by (unfold x1; cbn; now rewrite upd_same).
  apply LI_LV, receive_LI; rewrite ?Xc; auto.
  2:{ intros s Hs. rewrite Ecl in Hs. exact (proj1 (proj2 SI) c s Hs). }
  set (y := setC x1 c (with_cache (bump C1) (cache_put (c_cache C1) e))).
  assert (Yd : forall d, d <> c -> chs y d = chs x d) by (intros d N; unfold y, x1; cbn; now rewrite !upd_other).
  assert (Yc : chs y c = with_cache (bump C1) (cache_put (c_cache C1) e)) by (unfold y; cbn; now rewrite upd_same).
  assert (Yg : forall i h, cached (chs y c) i h -> i = e_id e \/ (i mod nb c <> e_id e mod nb c /\ cached C1 i h)).
  { intros i h. rewrite Yc. unfold cached. cbn. rewrite (get_put (nb c)) by auto. destruct (Nat.eqb_spec (e_id e) i); [auto|].
    destruct (Nat.eqb_spec (e_id e mod nb c) (i mod nb c)); [discriminate|]. auto. }
  constructor; intros d.
  - intros Ud. destruct (Nat.eq_dec d c) as [->|N]; [rewrite Yc|rewrite (Yd d N) in *; now apply (i_bp _ _ L)]. cbn. rewrite Ebp.
    now apply (i_bp _ _ L).
  - intros Ud. destruct (Nat.eq_dec d c) as [->|N]; [rewrite Yc|rewrite (Yd d N) in *; now apply (i_cg _ _ L)]. cbn. now apply cgood_put.
  - apply (v_in _ V).
  - intros b Ud H. destruct (Nat.eq_dec d c) as [->|N]; [|rewrite (Yd d N) in *; now apply (i_owed _ _ L)].
    destruct (i_owed _ _ L c b U0 H) as (i & Oi & Ei).
    assert (Oe : owed (chs y c) (e_id e)).
    { right; right; left; left. exists (e_obj e). rewrite Yc. unfold cached. cbn. rewrite (get_put (nb c)) by auto. now rewrite Nat.eqb_refl. }
    destruct (Nat.eq_dec (e_id e mod nb c) (i mod nb c)) as [E|Ne]; [exists (e_id e); split; [exact Oe|congruence]|].
    destruct (Ho i Oi) as [->|Oi']; [contradiction|]. exists i. split; [|exact Ei]. rewrite Yc. revert Oi'. apply owed_keep; cbn; auto.
    intros h Hc. unfold cached in *. cbn. rewrite (get_put (nb c)) by auto. destruct (Nat.eqb_spec (e_id e) i); [congruence|].
    destruct (Nat.eqb_spec (e_id e mod nb c) (i mod nb c)); [contradiction|exact Hc].
  - intros i h Ud Hc. destruct (Nat.eq_dec d c) as [->|N]; [|rewrite (Yd d N) in *; destruct (i_has _ _ L d i h Ud Hc) as [[]|]; auto].
    destruct (Yg i h Hc) as [->|[_ Hx]]; [auto|]. right. rewrite Yc. cbn. rewrite Ebp.
    destruct (Hg i h Hx) as [[h' K]|K]; [|auto]. eapply (v_has _ V); eauto.
  - intros i h s m Ud Hc Hp E. destruct (Nat.eq_dec d c) as [->|N]; [|rewrite (Yd d N) in *; eapply (i_uni _ _ L); eauto].
    destruct (Yg i h Hc) as [->|[_ Hx]].
    + exfalso. apply (Hpe m s); auto.
    + apply (has_pend_uniq x c i s m F U0); eauto.
  - intros p d'. apply (i_conn _ _ L).
Qed.

Lemma down_LV x c : LV x -> LV (chan_down x c).
Proof. intros V. unfold chan_down. cbn zeta. apply LV_chan; auto. cbn. discriminate. Qed.

Lemma setC_down_LV x c C1 : LV x -> LV (chan_down (setC x c C1) c).
Proof.
  intros V. apply (LV_mono x); auto. intros d. unfold chan_down. cbn. destruct (Nat.eq_dec d c) as [->|N]; [rewrite upd_same; discriminate|].
  rewrite !upd_other by auto. intros Up. refine (conj Up (conj (fun _ H => H) (fun m h K => v_has _ V d m h Up K))).
Qed.

Lemma fresh_slot x c s i m : FInv x -> c_up (chs x c) = true -> In m (rem (chs x c) ++ map fid (c_wire (chs x c))) ->
  pend x s c i -> i mod nb c <> m mod nb c.
Proof.
  intros [[[_ B] _] _] Up Hm Hp E. destruct (B c) as [_ _ _ U]. specialize (U Up). pose proof (nb_pos cfg W c) as Hn.
  destruct (u_pend _ _ _ _ _ _ _ _ _ U s i (or_introl Hp)) as (A1 & A2 & _).
  pose proof (u_ids _ _ _ _ _ _ _ _ _ U) as I. pose proof (u_sent _ _ _ _ _ _ _ _ _ U) as S.
  rewrite I in Hm. apply in_seq in Hm.
  assert (i = m) by (apply (window_mod (nb c)); auto; lia). lia.
Qed.

Lemma step_LV x l x' : FInv x -> LV x -> prompt x -> keeps cfg x -> leave_ok cfg x l -> step cfg x l = Some x' -> LV x'.
Proof.
  intros F V Pr Ke Lv St. pose proof (FInv_LI x F V) as L. pose proof F as [[[A B] SI] G]. destruct l; cbn in St.
  - destruct (p_phase (pubs x p)) eqn:Ph; try discriminate. injection St as <-. destruct (p_run (pubs x p)).
    + apply try_send_LV; auto. now rewrite Ph.
    + now apply LV_pub.
  - destruct (p_phase (pubs x p)) as [|o [|]|o|o|o c t] eqn:Ph; try discriminate.
    + injection St as <-. apply try_send_LV; auto. now rewrite Ph.
    + destruct (bp_available _ _) as [[|]|] eqn:Av; try discriminate. injection St as <-. apply start_LV; auto. now rewrite Ph.
  - destruct (p_phase (pubs x p)) eqn:Ph; try discriminate. injection St as <-. unfold grown. cbn zeta.
    apply next_channel_LV. unfold write_slot. apply LV_pub; auto. apply LV_pub; auto.
  - destruct (p_phase (pubs x p)) as [| | | |o cur todo] eqn:Ph; try discriminate. injection St as <-. apply next_channel_LV.
    pose proof (g_drain _ _ _ _ (G p)) as D. rewrite Ph in D. destruct D as (_ & D & _).
    assert (Hin : In cur (p_chans (pubs x p))) by (apply D; now left).
    destruct (g_chans _ _ _ _ (g_pc _ _ _ _ (G p)) cur Hin) as [Ep _].
    constructor.
    + intros q u b. cbn. unfold upd. destruct (Nat.eqb_spec q p) as [->|]; [|apply V]. cbn. intros H. apply held_lease in H.
      destruct H as [(-> & _)|H]; [exact Hin|]. eapply (v_in _ V); eauto.
    + intros c b. cbn. intros Up. unfold upd. destruct (Nat.eqb_spec (pubof c) p) as [E|]; [|now apply (v_owed _ V)]. cbn. intros H. apply held_lease in H.
      destruct H as [(-> & -> & _)|H]; [|apply (v_owed _ V); auto; now rewrite E].
      exists (p_nxt (pubs x p)). split; [exact (Pr p o cur todo Ph Up)|]. unfold slot_of, PubSubInv.nb. now rewrite E.
    + apply V.
  - destruct (p_phase (pubs x p)) as [| | | |o cur todo] eqn:Ph; try discriminate. destruct (c_up (chs x cur)); [discriminate|]. injection St as <-.
    now apply next_channel_LV.
  - injection St as <-. now apply LV_pub.
  - injection St as <-. now apply LV_pub.
  - (* a channel reads a frame *)
    destruct (c_up (chs x c)) eqn:Up; [|discriminate]. destruct (c_re (chs x c)) eqn:Re; [discriminate|].
    destruct (c_wire (chs x c)) as [|f w] eqn:Wi; [discriminate|].
    assert (RK : rekeys (chs x c) = []) by (unfold rekeys; now rewrite Re).
    assert (Rc : forall e, e_id e = fid f -> LV (receive cfg (setC x c (with_wire (chs x c) w)) c e)).
    { intros e Ee. apply receive_LV; auto.
      - now apply (i_cg _ _ L).
      - intros i [H|H]; [|right; right; exact H]. rewrite Wi in H. cbn in H. destruct H as [H|H]; [left; congruence|right; left; exact H].
      - intros i h K. left. eauto.
      - rewrite RK. intros i [].
      - intros i s Hp. rewrite Ee. apply (fresh_slot x c s); auto. rewrite Wi. apply in_or_app. right. now left. }
    destruct f as [m g|m o]; [|injection St as <-; now apply Rc].
    destruct (Nat.eqb_spec (c_gen (chs x c)) g) as [Eg|Ng]; injection St as <-.
    + unfold take_shm. cbn zeta. destruct (entry_of_slot _ _ _) as [e|]; [|now apply setC_down_LV].
      destruct (Nat.eqb_spec (e_id e) m) as [Em|]; [|now apply setC_down_LV]. now apply Rc.
    + apply LV_chan; auto. cbn. intros _. refine (conj Up (conj _ _)).
      * intros i H. unfold owed, has, rem, rekeys in *. cbn. rewrite Re, Wi in *. cbn in H.
        destruct H as [[H|H]|[[]|[[H|[]]|H]]]; auto. right; right; left; right. apply (keys_get (nb c)); [now apply (i_cg _ _ L)|exact H].
      * intros i h K. unfold cached in K. cbn in K. rewrite (get_clear (nb c)) in K; [discriminate|apply nb_pos, W|now apply (i_cg _ _ L)].
  - (* the new segment is attached *)
    destruct (c_up (chs x c)) eqn:Up; [|discriminate]. destruct (c_re (chs x c)) as [[[keys m] g]|] eqn:Re; [|discriminate].
    destruct (B c) as [_ _ _ U]. specialize (U Up). pose proof (u_frames _ _ _ _ _ _ _ _ _ U) as Fr. rewrite Re in Fr.
    destruct Fr as (F1 & F2 & F3 & F4 & F5). pose proof (nb_pos cfg W c) as Hn. pose proof (i_cg _ _ L c Up) as Gc.
    destruct (reput_spec cfg (nb c) (pubs x (pubof c)) (pubof c) g eq_refl Hn keys (c_cache (chs x c)) Gc F4) as (k & E & Gk & S1 & S2); [lia|].
    rewrite E in St. injection St as <-.
    assert (Em : forall i, cache_get (c_cache (chs x c)) i = None) by (destruct (u_re _ _ _ _ _ _ _ _ _ U); [congruence|auto]).
    assert (Uq : forall i j, In i keys -> In j keys -> j mod nb c = i mod nb c -> j = i).
    { intros i j Ki Kj E2. eapply (owed_slot cfg); [exact Hn|exact U|..|exact E2]; right; right; left; right; unfold rekeys; now rewrite Re. }
    unfold take_shm. cbn zeta. destruct (entry_of_slot _ _ _) as [e|]; [|now apply setC_down_LV].
    destruct (Nat.eqb_spec (e_id e) m) as [Ee|]; [|now apply setC_down_LV]. apply receive_LV; auto; cbn.
    + intros i [H|[H|[[[h H]|H]|H]]].
      * right; left. exact H.
      * left. unfold rem in H. rewrite Re in H. destruct H as [H|[]]. congruence.
      * unfold cached in H. rewrite Em in H. discriminate.
      * unfold rekeys in H. rewrite Re in H. right; right; right; left; left. exists (View g (i mod nb c)). apply S2; auto.
      * right; right; right; right. exact H.
    + intros i h K. destruct (S1 i h K) as [[K1 _]|K1]; [|rewrite Em in K1; discriminate]. right. unfold rekeys. now rewrite Re.
    + intros i H. unfold rekeys in H. rewrite Re in H. destruct (Ke c keys m g i Up Re H) as [s Hs]. exists s.
      apply (u_lease _ _ _ _ _ _ _ _ _ U). exists i. split; [left; exact Hs|reflexivity].
    + intros i s Hp. rewrite Ee. apply (fresh_slot x c s); auto. apply in_or_app. left. unfold rem. rewrite Re. now left.
  - (* an acknowledgement arrives *)
    destruct (c_ackw (chs x c)) as [|m a] eqn:Wa; [discriminate|]. destruct (existsb _ _) eqn:Ex; [|discriminate]. injection St as <-.
    constructor.
    + intros p u b. cbn. unfold upd. destruct (Nat.eqb_spec p (pubof c)) as [->|]; [|apply V]. cbn. intros H. apply held_free in H.
      eapply (v_in _ V); apply H.
    + intros d b. cbn. destruct (Nat.eq_dec d c) as [->|N].
      * rewrite !upd_same. cbn. intros Up H. apply held_free in H. destruct H as [Hn H]. destruct (v_owed _ V c b Up H) as (i & Oi & Ei).
        exists i. split; [|exact Ei]. destruct Oi as [K|[K|[K|K]]]; [left; exact K|right; left; exact K|right; right; left; exact K|].
        right; right; right. cbn. rewrite Wa in K. destruct K as [->|K]; [|exact K]. exfalso. apply Hn. split; [reflexivity|]. rewrite (slot_nb cfg). congruence.
      * rewrite upd_other by auto. intros Up. unfold upd. destruct (Nat.eqb_spec (pubof d) (pubof c)) as [E|]; [|now apply (v_owed _ V)]. cbn. intros H.
        apply held_free in H. rewrite <- E in H. apply (v_owed _ V); [auto|apply H].
    + intros d i h. cbn. unfold upd. destruct (Nat.eqb_spec d c) as [->|]; apply V.
  - (* a subscriber takes a notification *)
    destruct (s_queue (sbs x s)) as [|[p m] q] eqn:Q; [discriminate|]. cbn in St.
    destruct (s_chan (sbs x s) p) as [c|] eqn:Ch; [|injection St as <-; constructor; apply V].
    destruct (cache_get (c_cache (chs x c)) m) as [h|] eqn:Get; injection St as <-; [constructor; apply V|].
    apply LI_LV, release_LI.
    + apply LI_sub with (x := x); auto.
      * intros t d k. unfold PubSubSub.pend. cbn. unfold upd. destruct (Nat.eqb_spec t s) as [->|]; [|auto]. cbn. rewrite Q.
        intros [H [K|K]]; split; auto. left. now right.
      * intros t p' d. cbn. unfold upd. destruct (Nat.eqb_spec t s) as [->|]; apply (i_conn _ _ L).
    + cbn. intros Up i h Hc E _. assert (Ep : pubof c = p) by (eapply (i_conn _ _ L); eauto).
      apply (i_uni _ _ L c i h s m); auto. split; [now rewrite Ep|]. left. rewrite Q, Ep. now left.
  - (* a release *)
    destruct (nth_error (s_reading (sbs x s)) k) as [r|] eqn:Nr; [|discriminate]. injection St as <-.
    pose proof (nth_error_In _ _ Nr) as Hr. apply LI_LV, release_LI.
    + apply LI_sub with (x := x); auto.
      * intros t d i. unfold PubSubSub.pend. cbn. unfold upd. destruct (Nat.eqb_spec t s) as [->|]; [|auto]. cbn.
        intros [H [K|(r' & K & K')]]; split; auto. right. exists r'. split; [|exact K']. eapply in_remove_nth; eauto.
      * intros t p' d. cbn. unfold upd. destruct (Nat.eqb_spec t s) as [->|]; apply (i_conn _ _ L).
    + cbn. intros Up i h Hc E Hh. destruct (r_stale r) eqn:Sr.
      * (* a disconnected reader holds nothing in the channel's books *)
        exfalso. destruct (b_stale _ _ _ _ _ (proj1 SI s) r Hr Sr) as [Sn Sp]. destruct (B (r_chan r)) as [_ _ _ U]. specialize (U Up).
        apply (u_lease _ _ _ _ _ _ _ _ _ U) in Hh. destruct Hh as (i' & [[Hp _]|[]] & _). congruence.
      * destruct (b_read _ _ _ _ _ (proj1 SI s) r Hr Sr) as [Sc _]. assert (Ep : pubof (r_chan r) = r_pub r) by (eapply (i_conn _ _ L); eauto).
        apply (i_uni _ _ L (r_chan r) i h s (r_id r)); auto. split; [now rewrite Ep|]. right. exists r. auto.
  - (* a new channel *)
    destruct (c_born (chs x c)) eqn:Bo; [discriminate|].
    assert (Nin : ~ In c (p_chans (pubs x (pubof c)))). { intros K. destruct (g_chans _ _ _ _ (g_pc _ _ _ _ (G (pubof c))) c K). congruence. }
    destruct (p_phase (pubs x (pubof c))) eqn:Ph; try discriminate;
    (destruct (is_local c && existsb is_local (p_chans (pubs x (pubof c))))%bool; [discriminate|]; injection St as <-;
     constructor;
     [ intros p u b; cbn; unfold upd; destruct (Nat.eqb_spec p (pubof c)) as [->|]; [|apply V]; cbn; intros H; apply in_or_app; left; eapply (v_in _ V); eauto
     | intros d b; cbn; destruct (Nat.eq_dec d c) as [->|N];
       [ rewrite !upd_same; cbn; intros _ H; exfalso; apply Nin; eapply (v_in _ V); eauto
       | rewrite upd_other by auto; intros Up; unfold upd; destruct (Nat.eqb_spec (pubof d) (pubof c)) as [E|]; [rewrite <- E; cbn|]; now apply (v_owed _ V) ]
     | intros d i h; cbn; unfold upd; destruct (Nat.eqb_spec d c) as [->|]; [|apply V]; cbn; intros _ K; unfold cached in K; cbn in K;
       rewrite get_new in K by (apply (wf_nbuf _ W)); discriminate ]).
  - destruct (c_up (chs x c)) eqn:Up; [|discriminate]. injection St as <-. now apply down_LV.
  - (* the publisher forgets a lost channel *)
    destruct (c_up (chs x c)) eqn:Up; [discriminate|].
    destruct (p_phase (pubs x (pubof c))) eqn:Ph; try discriminate;
    (destruct (existsb _ _) eqn:Ex; [|discriminate]; injection St as <-; constructor;
     [ intros p u b; cbn; unfold upd; destruct (Nat.eqb_spec p (pubof c)) as [->|]; [|apply V]; cbn; intros H; apply held_free in H; destruct H as [H1 H2];
       apply filter_In; split; [eapply (v_in _ V); eauto|]; destruct (Nat.eqb_spec u c); [|reflexivity]; exfalso; apply H1; auto
     | intros d b; cbn; intros Ud; unfold upd; destruct (Nat.eqb_spec (pubof d) (pubof c)) as [E|]; [|now apply (v_owed _ V)]; cbn; intros H; apply held_free in H;
       apply (v_owed _ V); [auto|rewrite E; apply H]
     | apply V ]).
  - (* a subscriber registers *)
    destruct (c_up (chs x c)) eqn:Up; [|discriminate]. destruct (s_chan (sbs x s) (pubof c)) eqn:Sc; [discriminate|]. injection St as <-.
    apply (LV_mono x); auto. intros d. cbn. unfold upd. destruct (Nat.eqb_spec d c) as [->|N]; cbn.
    + intros _. refine (conj Up (conj (fun _ H => H) (fun m h K => v_has _ V c m h Up K))).
    + intros Ud. refine (conj Ud (conj (fun _ H => H) (fun m h K => v_has _ V d m h Ud K))).
  - (* a subscriber holding nothing is unregistered *)
    destruct (s_chan (sbs x s) p) as [c|] eqn:Sc; [|discriminate]. injection St as <-.
    assert (Ep : pubof c = p) by (eapply (i_conn _ _ L); eauto).
    apply (LV_mono x); auto. intros d. cbn. unfold upd. destruct (Nat.eqb_spec d c) as [->|N]; cbn.
    + intros Up. refine (conj Up (conj (fun _ H => H) _)). intros m h K. destruct (v_has _ V c m h Up K) as [u Hu]. exists u. apply held_free.
      split; [|exact Hu]. intros Hus. subst u. destruct (B c) as [_ _ _ U]. specialize (U Up).
      apply (u_lease _ _ _ _ _ _ _ _ _ U) in Hu. destruct Hu as (i & [Hp|[]] & _). exact (Lv c i Ep Hp).
    + intros Ud. refine (conj Ud (conj (fun _ H => H) (fun m h K => v_has _ V d m h Ud K))).
Qed.

Lemma init_LV : LV (init cfg : st).
Proof.
  constructor; cbn.
  - intros p u b H. exfalso. now apply held_new in H.
  - discriminate.
  - discriminate.
Qed.

Lemma init_prompt : prompt (init cfg : st). Proof. intros p o cur todo. cbn. discriminate. Qed.
Lemma init_keeps : keeps cfg (init cfg : st). Proof. intros c k m g i. cbn. discriminate. Qed.

Theorem reachw_live x : reachw cfg x -> FInv x /\ LV x /\ prompt x /\ keeps cfg x.
Proof.
  induction 1 as [|x l x' R (F & V & Pr & Ke) J Lv St Pr' Ke']; [split; [|split; [|split]]; auto using init_FInv, init_LV, init_prompt, init_keeps|].
  split; [eapply step_FInv; eauto|]. split; [eapply step_LV; eauto|]. auto.
Qed.

Lemma reachw_reach x : reachw cfg x -> reach cfg x.
Proof. induction 1; [constructor|econstructor; eauto]. Qed.
End Live.
