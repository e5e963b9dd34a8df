(** Consequences of the invariants for the properties C15-C23. *)
From Coq Require Import List ZArith Arith Bool Lia Sorted.
From Verif Require Import BackpressureModel BackpressureProofs CacheModel CacheProofs TransportModel PubSubModel PubSubSpec PubSubInv PubSubSub
  PubSubSteps PubSubSteps2 PubSubSteps3 PubSubSteps4 PubSubSteps5 PubSubLive PubSubDrain.
Import ListNotations.

Section Proofs.
Context {Obj : Type}.
Variable cfg : config.
Hypothesis W : wf cfg.
Notation st := (st Obj).
Notation pubst := (pubst Obj).
Notation chst := (chst Obj).
Notation sbst := (sbst Obj).
Notation nb := (nb cfg).
Notation pubof := (pubof cfg).
Notation pend := (pend cfg).
Notation is_local := (is_local cfg).
Notation is_shm := (is_shm cfg).
Notation FInv := (FInv cfg).
Notation step := (step cfg).
Implicit Types x y z : st.

(** C15 *)
Lemma hgood_visible x p m h : hgood (nbuf cfg p) (pubs x p) m h -> visible x p h = published x p m /\ published x p m <> None.
Proof.
  unfold published. destruct h as [o|g b]; cbn.
  - intros E. rewrite E. split; [reflexivity|discriminate].
  - intros (-> & Hg & o & E & Hm). rewrite (Hm g) by lia. rewrite E. split; [reflexivity|discriminate].
Qed.

Lemma read_stable x s r : reach cfg x -> In r (s_reading (sbs x s)) -> r_stale r = false -> c_up (chs x (r_chan r)) = true ->
  visible x (r_pub r) (r_h r) = published x (r_pub r) (r_id r) /\ published x (r_pub r) (r_id r) <> None.
Proof.
  intros R Hr Hs Up. destruct (reach_FInv cfg W x R) as [[_ [SI _]] _].
  apply hgood_visible. apply (b_hgood _ _ _ _ _ (SI s) r Hr Hs Up).
Qed.

Lemma pend_cached x s c m : FInv x -> c_up (chs x c) = true -> c_re (chs x c) = None -> pend x s c m ->
  exists h, cache_get (c_cache (chs x c)) m = Some h /\ visible x (pubof c) h = published x (pubof c) m /\ published x (pubof c) m <> None.
Proof.
  intros [[[A B] SI] G] Up Re H. destruct (B c) as [_ _ _ U]. specialize (U Up).
  destruct (u_pend _ _ _ _ _ _ _ _ _ U s m (or_introl H)) as (_ & _ & [[[h Hh]|Hk]|[]]).
  - exists h. split; [exact Hh|]. apply hgood_visible. exact (proj1 (u_handles _ _ _ _ _ _ _ _ _ U m h Hh)).
  - unfold rekeys in Hk. rewrite Re in Hk. destruct Hk.
Qed.

Lemma queued_stable x s c m : reach cfg x -> c_up (chs x c) = true -> c_re (chs x c) = None -> holds cfg x s c m ->
  exists h, cache_get (c_cache (chs x c)) m = Some h /\ visible x (pubof c) h = published x (pubof c) m /\ published x (pubof c) m <> None.
Proof. intros R. apply (pend_cached x s c m). now apply reach_FInv. Qed.

Lemma got_sent x s p m v : reach cfg x -> In (EGot m v) (s_hist (sbs x s) p) -> v = published x p m /\ v <> None.
Proof. intros R H. destruct (reach_FInv cfg W x R) as [[_ [SI _]] _]. destruct (b_vals _ _ _ _ _ (SI s) p m v H). auto. Qed.

(** C16 *)
Lemma next_le x c : FInv x -> c_up (chs x c) = true -> c_next (chs x c) <= total (pubs x (pubof c)).
Proof. intros [[[A B] SI] G] Up. destruct (B c) as [_ _ _ U]. specialize (U Up). pose proof (u_sent _ _ _ _ _ _ _ _ _ U). lia. Qed.

Lemma firstn_app_seq (l q : list nat) a n : l ++ q = seq a n -> l = seq a (length l).
Proof.
  revert a n. induction l as [|x l IH]; intros a n E; [reflexivity|]. destruct n; [discriminate|]. cbn in *. injection E as -> E. f_equal. eapply IH; eauto.
Qed.

Lemma hist_ids x s p c : FInv x -> s_chan (sbs x s) p = Some c -> map ev_id (s_hist (sbs x s) p) = seq (s_join (sbs x s) p) (length (s_hist (sbs x s) p)).
Proof.
  intros [[_ [SI _]] _] E. destruct (b_order _ _ _ _ _ (SI s) p c E) as [_ H]. apply firstn_app_seq in H. now rewrite map_length in H.
Qed.

Lemma received_all (sent : list Obj) h : forall a, map ev_id h = seq a (length h) -> (forall m v, In (EGot m v) h -> v = nth_error sent m) ->
  (forall m, ~ In (EMiss m) h) -> (forall m, ~ In (EDrop m) h) -> received h = map (fun i => (i, nth_error sent i)) (seq a (length h)).
Proof.
  induction h as [|e h IH]; intros a E V N1 N2; [reflexivity|]. cbn in E. injection E as E0 E. destruct e as [m v|m|m]; cbn in *.
  - subst m. f_equal; [f_equal; apply (V a v); now left|]. apply IH; [exact E|intros; apply V; now right|intros i K; apply (N1 i); now right|intros i K; apply (N2 i); now right].
  - exfalso. apply (N1 m). now left.
  - exfalso. apply (N2 m). now left.
Qed.

Lemma fifo x s p c : reach cfg x -> never_drops cfg s -> s_chan (sbs x s) p = Some c -> (forall m, ~ In (EMiss m) (s_hist (sbs x s) p)) ->
  delivers_from (p_sent (pubs x p)) (s_join (sbs x s) p) (s_hist (sbs x s) p).
Proof.
  intros R Nd E Nm. pose proof (reach_FInv cfg W x R) as F. pose proof F as [[_ [SI _]] _]. pose proof (hist_ids x s p c F E) as Hi.
  pose proof (fun m v H => b_vals _ _ _ _ _ (SI s) p m v H) as V.
  assert (Hd : forall m, ~ In (EDrop m) (s_hist (sbs x s) p)).
  { intros m H. destruct (b_leaky _ _ _ _ _ (SI s) p m H) as (k & E1 & E2). unfold never_drops in Nd. rewrite E1 in Nd. lia. }
  split.
  - apply received_all; auto. intros m v H. apply V, H.
  - set (h := s_hist (sbs x s) p) in *. set (a := s_join (sbs x s) p) in *. intros i Hlt.
    assert (In (a + i) (map ev_id h)). { rewrite Hi. apply in_seq. lia. }
    apply in_map_iff in H as (e & Ee & He). destruct e as [m v|m|m]; [|destruct (Nm m He)|destruct (Hd m He)].
    cbn in Ee. subst m. destruct (V _ _ He) as [N Q]. rewrite Q in N. apply nth_error_Some in N. exact N.
Qed.

Definition nomiss x y : Prop := forall s p m, In (EMiss m) (s_hist (sbs y s) p) -> In (EMiss m) (s_hist (sbs x s) p).
Lemma nomiss_refl x : nomiss x x. Proof. intros s p m H. exact H. Qed.
Lemma nomiss_trans x y z : nomiss x y -> nomiss y z -> nomiss x z. Proof. intros A B s p m H. auto. Qed.
Lemma nomiss_sbs x y : sbs y = sbs x -> nomiss x y. Proof. intros E s p m. now rewrite E. Qed.
Lemma nomiss_release x c m s : nomiss x (release cfg x c m s). Proof. apply nomiss_sbs, release_sbs. Qed.
Lemma nomiss_log x s p e S : (forall q, In e [EMiss q] -> False) -> s_hist S = upd (s_hist (sbs x s)) p (s_hist (sbs x s) p ++ [e]) -> nomiss x (setS x s S).
Proof.
  intros Ne E t q m. cbn. unfold upd. destruct (Nat.eqb_spec t s) as [->|]; [|auto]. rewrite E. unfold upd. destruct (Nat.eqb_spec q p) as [->|]; [|auto].
  intros H. apply in_app_or in H as [H|[->|[]]]; [exact H|]. exfalso. apply (Ne m). now left.
Qed.
Lemma nomiss_drop x s : nomiss x (drop_oldest cfg x s).
Proof.
  unfold drop_oldest. destruct (s_queue (sbs x s)) as [|[p m] q]; [apply nomiss_refl|]. set (y := setS x s _).
  assert (nomiss x y). { apply nomiss_log with (p := p) (e := EDrop m); [intros i [H|[]]; discriminate|reflexivity]. }
  cbn zeta. destruct (s_chan (sbs y s) p); [|assumption]. eapply nomiss_trans; [eassumption|apply nomiss_release].
Qed.
Lemma nomiss_keep x s S : s_hist S = s_hist (sbs x s) -> nomiss x (setS x s S).
Proof. intros E t q m. cbn. unfold upd. destruct (Nat.eqb_spec t s) as [->|]; [|auto]. now rewrite E. Qed.
Lemma nomiss_push x s p m : nomiss x (push cfg x s p m).
Proof.
  unfold push. cbn zeta. eapply nomiss_trans with (y := if queue_full cfg x s then drop_oldest cfg x s else x).
  - destruct (queue_full cfg x s); [apply nomiss_drop|apply nomiss_refl].
  - now apply nomiss_keep.
Qed.
Lemma nomiss_notify c m l : forall x, nomiss x (fold_left (notify1 cfg c m) l x).
Proof.
  induction l as [|s l IH]; intros x; cbn; [apply nomiss_refl|]. eapply nomiss_trans; [|apply IH]. unfold notify1. cbn zeta.
  eapply nomiss_trans; [|apply nomiss_push]. now apply nomiss_sbs.
Qed.
Lemma nomiss_receive x c e : nomiss x (receive cfg x c e).
Proof.
  unfold receive. cbn zeta. set (y := setC x c _). assert (nomiss x y) by now apply nomiss_sbs.
  assert (nomiss x (notify cfg y c (e_id e))) by (eapply nomiss_trans; [eassumption|apply nomiss_notify]).
  destruct (anyone _ _ _ _); [assumption|]. eapply nomiss_trans; [eassumption|]. now apply nomiss_sbs.
Qed.
Lemma nomiss_put_local x c m o : nomiss x (put_local cfg x c m o).
Proof.
  unfold put_local. cbn zeta. set (y := setC x c _). assert (nomiss x y) by now apply nomiss_sbs.
  assert (nomiss x (notify cfg y c m)) by (eapply nomiss_trans; [eassumption|apply nomiss_notify]).
  destruct (anyone _ _ _ _); [|assumption]. eapply nomiss_trans; [eassumption|]. now apply nomiss_sbs.
Qed.
Lemma nomiss_next x p o todo : nomiss x (next_channel cfg x p o todo).
Proof. apply nomiss_sbs. destruct todo; reflexivity. Qed.
Lemma nomiss_start x p o grow : nomiss x (start cfg x p o grow).
Proof.
  unfold start. cbn zeta. set (y := setP x p _). set (z := match find _ _ with Some _ => _ | None => _ end).
  assert (nomiss x z).
  { apply nomiss_trans with (y := y); [now apply nomiss_sbs|]. unfold z. destruct (find _ _); [apply nomiss_put_local|apply nomiss_refl]. }
  destruct (existsb _ _); [destruct grow|]; (eapply nomiss_trans; [eassumption|]); [now apply nomiss_sbs| |apply nomiss_next].
  eapply nomiss_trans; [|apply nomiss_next]. now apply nomiss_sbs.
Qed.
Lemma nomiss_try x p o grow : nomiss x (try_send cfg x p o grow).
Proof. unfold try_send. cbn zeta. destruct (bp_available _ _) as [[]|]; [apply nomiss_start|..]; now apply nomiss_sbs. Qed.
Lemma nomiss_take x c m g : nomiss x (take_shm cfg x c m g).
Proof.
  unfold take_shm. cbn zeta. destruct (entry_of_slot _ _ _) as [e|]; [|now apply nomiss_sbs]. destruct (e_id e =? m); [apply nomiss_receive|now apply nomiss_sbs].
Qed.

Lemma step_nomiss x l x' : FInv x -> get_ok x l -> step x l = Some x' -> nomiss x x'.
Proof.
  intros F Go St. destruct l; cbn in St.
  - destruct (p_phase (pubs x p)); try discriminate. injection St as <-. destruct (p_run (pubs x p)); [apply nomiss_try|now apply nomiss_sbs].
  - destruct (p_phase (pubs x p)) as [|o []|o| |]; try discriminate.
    + injection St as <-. apply nomiss_try.
    + destruct (bp_available _ _) as [[]|]; try discriminate. injection St as <-. apply nomiss_start.
  - destruct (p_phase (pubs x p)); try discriminate. injection St as <-. unfold grown. cbn zeta. eapply nomiss_trans; [|apply nomiss_next]. now apply nomiss_sbs.
  - destruct (p_phase (pubs x p)); try discriminate. injection St as <-. eapply nomiss_trans; [|apply nomiss_next]. now apply nomiss_sbs.
  - destruct (p_phase (pubs x p)); try discriminate. destruct (c_up _); [discriminate|]. injection St as <-. apply nomiss_next.
  - injection St as <-. now apply nomiss_sbs.
  - injection St as <-. now apply nomiss_sbs.
  - destruct (c_up (chs x c)); [|discriminate]. destruct (c_re (chs x c)); [discriminate|]. destruct (c_wire (chs x c)) as [|[m g|m o] w]; [discriminate|..].
    + destruct (c_gen (chs x c) =? g); injection St as <-; [|now apply nomiss_sbs]. eapply nomiss_trans; [|apply nomiss_take]. now apply nomiss_sbs.
    + injection St as <-. eapply nomiss_trans; [|apply nomiss_receive]. now apply nomiss_sbs.
  - destruct (c_up (chs x c)); [|discriminate]. destruct (c_re (chs x c)) as [[[keys m] g]|]; [|discriminate].
    destruct (reput _ _ _ _ _ _); injection St as <-; [|now apply nomiss_sbs]. eapply nomiss_trans; [|apply nomiss_take]. now apply nomiss_sbs.
  - destruct (c_ackw (chs x c)); [discriminate|]. destruct (existsb _ _); [|discriminate]. injection St as <-. now apply nomiss_sbs.
  - cbn in Go. destruct (s_queue (sbs x s)) as [|[p m] q] eqn:Q; [discriminate|]. cbn in St. destruct (s_chan (sbs x s) p) as [c|] eqn:E.
    2:{ injection St as <-. now apply nomiss_keep. }
    destruct (Go c eq_refl) as [Up Re].
    assert (Ep : pubof c = p) by (destruct F as [[_ [SI _]] _]; apply (b_conn _ _ _ _ _ (SI s) p c E)).
    destruct (pend_cached x s c m F Up Re) as (h & Hh & _).
    { split; rewrite Ep; [exact E|]. left. rewrite Q. now left. }
    rewrite Hh in St. injection St as <-. apply nomiss_log with (p := p) (e := EGot m (visible x p h)); [intros i [K|[]]; discriminate|reflexivity].
  - destruct (nth_error _ k); [|discriminate]. injection St as <-. eapply nomiss_trans; [|apply nomiss_release]. now apply nomiss_keep.
  - destruct (c_born (chs x c)); [discriminate|]. destruct (p_phase _); try discriminate; (destruct (_ && _); [discriminate|]; injection St as <-; now apply nomiss_sbs).
  - destruct (c_up (chs x c)); [|discriminate]. injection St as <-. now apply nomiss_sbs.
  - destruct (c_up (chs x c)); [discriminate|]. destruct (p_phase _); try discriminate; (destruct (existsb _ _); [|discriminate]; injection St as <-; now apply nomiss_sbs).
  - destruct (c_up (chs x c)); [|discriminate]. destruct (s_chan _ _); [discriminate|]. injection St as <-.
    intros t q m. cbn. unfold upd. destruct (Nat.eqb_spec t s) as [->|]; [|auto]. cbn. destruct (Nat.eqb_spec q (pubof c)) as [->|]; [intros []|auto].
  - destruct (s_chan _ _); [|discriminate]. injection St as <-. intros t q m. cbn. unfold upd. destruct (Nat.eqb_spec t s) as [->|]; auto.
Qed.

Lemma reachg_facts x : reachg cfg x -> reach cfg x /\ forall s p m, ~ In (EMiss m) (s_hist (sbs x s) p).
Proof.
  induction 1 as [|x l x' R [IH1 IH2] J Go St]; [split; [constructor|intros s p m []]|].
  split; [econstructor; eauto|]. intros s p m H. apply (IH2 s p m). eapply step_nomiss; eauto. now apply reach_FInv.
Qed.

Lemma fifo_g x s p c : reachg cfg x -> never_drops cfg s -> s_chan (sbs x s) p = Some c ->
  delivers_from (p_sent (pubs x p)) (s_join (sbs x s) p) (s_hist (sbs x s) p).
Proof. intros R Nd E. destruct (reachg_facts x R) as [R' N]. eapply fifo; eauto. Qed.

Lemma get_delivers x s p m q c : reach cfg x -> s_queue (sbs x s) = (p, m) :: q -> s_chan (sbs x s) p = Some c ->
  c_up (chs x c) = true -> c_re (chs x c) = None -> exists y, step x (LGet s) = Some y /\
  s_hist (sbs y s) p = s_hist (sbs x s) p ++ [EGot m (published x p m)] /\ published x p m <> None.
Proof.
  intros R Q E Up Re. pose proof (reach_FInv cfg W x R) as F. pose proof F as [[_ [SI _]] _].
  assert (Ep : pubof c = p) by apply (b_conn _ _ _ _ _ (SI s) p c E).
  destruct (pend_cached x s c m F Up Re) as (h & Hh & Hv & Hn).
  { split; rewrite Ep; [exact E|]. left. rewrite Q. now left. }
  cbn. rewrite Q. cbn. rewrite E, Hh. eexists. split; [reflexivity|]. cbn. rewrite upd_same. cbn. rewrite upd_same. rewrite Ep in *. rewrite Hv. auto.
Qed.

Lemma ids_of_qids p q : ids_of p q = qids p q.
Proof. unfold qids. induction q as [|[p' m] q IH]; [reflexivity|]. cbn. destruct (p' =? p); cbn; now rewrite IH. Qed.

Lemma complete x s p c : reach cfg x -> s_chan (sbs x s) p = Some c -> c_up (chs x c) = true -> c_wire (chs x c) = [] -> c_re (chs x c) = None ->
  between_broadcasts x p -> ids_of p (s_queue (sbs x s)) = [] -> s_join (sbs x s) p + length (s_hist (sbs x s) p) = length (p_sent (pubs x p)).
Proof.
  intros R E Up Wi Re Bt Q. pose proof (reach_FInv cfg W x R) as F. pose proof F as [[[A B] [SI _]] _]. rewrite ids_of_qids in Q.
  destruct (b_conn _ _ _ _ _ (SI s) p c E) as [Ep _]. subst p.
  destruct (b_order _ _ _ _ _ (SI s) _ c E) as [L H]. rewrite Q, app_nil_r in H. apply (f_equal (@length nat)) in H. rewrite map_length, seq_length in H.
  destruct (B c) as [_ _ _ U]. specialize (U Up). pose proof (u_sent _ _ _ _ _ _ _ _ _ U) as Us. unfold rem in Us. rewrite Wi, Re in Us. cbn in Us.
  unfold lag_of in Us. unfold between_broadcasts in Bt. unfold next_of, total in *. destruct (p_phase (pubs x (pubof c))); try contradiction; lia.
Qed.

(** C17 *)
Lemma received_sorted h : forall a, map ev_id h = seq a (length h) -> StronglySorted lt (map fst (received (Obj := Obj) h)) /\
  forall m, In m (map fst (received h)) -> a <= m.
Proof.
  induction h as [|e h IH]; intros a E; [split; [constructor|intros m []]|]. cbn in E. injection E as E0 E. destruct (IH _ E) as [IH1 IH2].
  destruct e as [m v|m|m]; cbn in *; (split; [|intros i Hi]).
  - constructor; [exact IH1|]. apply Forall_forall. intros i Hi. specialize (IH2 i Hi). lia.
  - destruct Hi as [<-|Hi]; [lia|]. specialize (IH2 i Hi). lia.
  - exact IH1.
  - specialize (IH2 i Hi). lia.
  - exact IH1.
  - specialize (IH2 i Hi). lia.
Qed.

Lemma leaky_increasing x s p c : reach cfg x -> s_chan (sbs x s) p = Some c ->
  StronglySorted lt (map fst (received (s_hist (sbs x s) p))) /\
  (forall m v, In (m, v) (received (s_hist (sbs x s) p)) -> v = published x p m /\ v <> None).
Proof.
  intros R E. pose proof (reach_FInv cfg W x R) as F. split; [apply (received_sorted _ _ (hist_ids x s p c F E))|].
  intros m v H. apply (got_sent x s p m v R). revert H. generalize (s_hist (sbs x s) p). induction l as [|e l IH]; cbn; [intros []|].
  destruct e as [i w|i|i]; cbn; auto. intros [K|K]; [injection K as -> ->; now left|auto].
Qed.

Lemma accounted x s p c : reach cfg x -> s_chan (sbs x s) p = Some c ->
  map ev_id (s_hist (sbs x s) p) ++ ids_of p (s_queue (sbs x s)) = seq (s_join (sbs x s) p) (c_next (chs x c) - s_join (sbs x s) p).
Proof. intros R E. destruct (reach_FInv cfg W x R) as [[_ [SI _]] _]. rewrite ids_of_qids. apply (b_order _ _ _ _ _ (SI s) p c E). Qed.

Lemma qids_in p m q : In (p, m) q -> In m (qids p q).
Proof. intros H. unfold qids. apply in_map_iff. exists (p, m). split; [reflexivity|]. apply filter_In. cbn. now rewrite Nat.eqb_refl. Qed.

Lemma NoDup_app_out {A} (l q : list A) m : NoDup (l ++ q) -> In m l -> In m q -> False.
Proof.
  induction l as [|a l IH]; intros N H1 H2; [destruct H1|]. cbn in N. inversion N as [|? ? N1 N2]; subst.
  destruct H1 as [<-|H1]; [apply N1, in_or_app; auto|auto].
Qed.

Lemma gone_not_held x s p m : reach cfg x -> (In (EDrop m) (s_hist (sbs x s) p) \/ In (EMiss m) (s_hist (sbs x s) p)) ->
  forall c, pubof c = p -> ~ holds cfg x s c m.
Proof.
  intros R H c <- [E [Hq|(r & Hr & Hs & Hp & Hi)]]; pose proof (reach_FInv cfg W x R) as F; pose proof F as [[_ [SI _]] _].
  - destruct (b_order _ _ _ _ _ (SI s) _ c E) as [_ O]. apply qids_in in Hq.
    assert (N : NoDup (map ev_id (s_hist (sbs x s) (pubof c)) ++ qids (pubof c) (s_queue (sbs x s)))) by (rewrite O; apply seq_NoDup).
    assert (In m (map ev_id (s_hist (sbs x s) (pubof c)))) by (apply in_map_iff; destruct H as [H|H]; eexists; (split; [|exact H]); reflexivity).
    exact (NoDup_app_out _ _ m N H0 Hq).
  - destruct (b_read _ _ _ _ _ (SI s) r Hr Hs) as [_ [v Hv]]. rewrite Hp, Hi in Hv.
    pose proof (hist_ids x s _ c F E) as Q. revert H Hv Q. generalize (s_join (sbs x s) (pubof c)) (s_hist (sbs x s) (pubof c)). clear.
    intros a h H Hv Q. assert (N : NoDup (map ev_id h)) by (rewrite Q; apply seq_NoDup). clear Q.
    induction h as [|e h IH]; [destruct Hv|]. cbn in N. inversion N; subst. destruct Hv as [->|Hv].
    + cbn in H2. apply H2. destruct H as [[K|K]|[K|K]]; try discriminate; apply in_map_iff; (eexists; split; [|exact K]); reflexivity.
    + destruct H as [[->|K]|[->|K]]; [|eapply IH; eauto| |eapply IH; eauto]; apply H2, in_map_iff; (eexists; split; [|exact Hv]); reflexivity.
Qed.

Lemma lease_means_hold x s c b : reach cfg x -> c_up (chs x c) = true ->
  (leased (c_bp (chs x c)) s b <-> exists m, holds cfg x s c m /\ slot_of cfg (pubof c) m = b).
Proof.
  intros R Up. destruct (reach_FInv cfg W x R) as [[[A B] SI] G]. destruct (B c) as [_ _ _ U]. specialize (U Up).
  pose proof (u_lease _ _ _ _ _ _ _ _ _ U s b) as L. unfold leased. unfold held_in in L. rewrite L. split.
  - intros (m & [H|[]] & E). exists m. split; [exact H|exact E].
  - intros (m & H & E). exists m. split; [left; exact H|exact E].
Qed.

Lemma queue_limit x s k : reach cfg x -> maxq cfg s = Some k -> (0 < k)%Z -> (Z.of_nat (length (s_queue (sbs x s))) <= k)%Z.
Proof. intros R. destruct (reach_FInv cfg W x R) as [[_ [SI _]] _]. apply (b_len _ _ _ _ _ (SI s)). Qed.

(** C18 *)
Lemma outstanding_window x p m : reach cfg x -> outstanding cfg x p m -> m < length (p_sent (pubs x p)) /\ length (p_sent (pubs x p)) <= m + nbuf cfg p.
Proof.
  intros R (s & c & <- & Up & H). pose proof (reach_FInv cfg W x R) as F. pose proof (next_le x c F Up) as Nx. destruct F as [[[A B] SI] G]. destruct (B c) as [_ _ _ U]. specialize (U Up).
  destruct (u_pend _ _ _ _ _ _ _ _ _ U s m (or_introl H)) as (L1 & L2 & _). unfold total in *. fold (nb c). lia.
Qed.

Lemma outstanding_few x p l : reach cfg x -> NoDup l -> (forall m, In m l -> outstanding cfg x p m) -> length l <= nbuf cfg p.
Proof.
  intros R N H. set (T := length (p_sent (pubs x p))).
  assert (incl l (seq (T - nbuf cfg p) (nbuf cfg p))).
  { intros m Hm. destruct (outstanding_window x p m R (H m Hm)). fold T in H0, H1. apply in_seq. lia. }
  apply NoDup_incl_length in H0; [|exact N]. now rewrite seq_length in H0.
Qed.

Lemma avail x p i : reach cfg x -> i < nbuf cfg p ->
  (bp_available (p_bp (pubs x p)) i = Some true /\ forall u, ~ leased (p_bp (pubs x p)) u i) \/
  (bp_available (p_bp (pubs x p)) i = Some false /\ exists u, leased (p_bp (pubs x p)) u i).
Proof. intros R Hi. destruct (reach_FInv cfg W x R) as [[[A B] SI] G]. exact (available_dec (nbuf cfg p) (p_bp (pubs x p)) i (A p) Hi). Qed.

Lemma slot_lt p m : slot_of cfg p m < nbuf cfg p.
Proof. unfold slot_of. apply Nat.mod_upper_bound. pose proof (wf_nbuf _ W p). lia. Qed.

Lemma phase_put_local x c m o p : p_phase (pubs (put_local cfg x c m o) p) = p_phase (pubs x p).
Proof. apply (q_phase _ _ (same_put_local cfg x c m o)). Qed.

Lemma start_phase x p o grow o' : p_phase (pubs x p) = WaitBuf o' \/ True -> p_phase (pubs (start cfg x p o grow) p) <> WaitBuf o'.
Proof.
  intros _. unfold start. cbn zeta. set (z := match find _ _ with Some _ => _ | None => _ end).
  assert (Nx : forall y l, p_phase (pubs (next_channel cfg y p o l) p) <> WaitBuf o').
  { intros y [|c l]; cbn; rewrite upd_same; discriminate. }
  destruct (existsb _ _); [destruct grow|]; try apply Nx. cbn. rewrite upd_same. discriminate.
Qed.

Lemma broadcast_waits x p o grow y : reach cfg x -> p_phase (pubs x p) = Idle -> p_run (pubs x p) = true -> step x (LBroadcast p o grow) = Some y ->
  (waits_for_buffer y p <-> exists u, leased (p_bp (pubs x p)) u (slot_of cfg p (p_nxt (pubs x p)))).
Proof.
  intros R Ph Ru St. cbn in St. rewrite Ph, Ru in St. injection St as <-. unfold try_send. cbn zeta.
  destruct (avail x p _ R (slot_lt p (p_nxt (pubs x p)))) as [[-> N]|[-> E]].
  - split; [|intros [u Hu]; destruct (N u Hu)]. intros [o' Ho]. exfalso. revert Ho. apply start_phase. now right.
  - split; [intros _; exact E|intros _]. exists o. cbn. now rewrite upd_same.
Qed.

Lemma proceeds_iff_free x p grow : reach cfg x -> waits_for_buffer x p ->
  (step x (LProceed p grow) <> None <-> forall u, ~ leased (p_bp (pubs x p)) u (slot_of cfg p (p_nxt (pubs x p)))).
Proof.
  intros R [o Ph]. cbn. rewrite Ph. destruct (avail x p _ R (slot_lt p (p_nxt (pubs x p)))) as [[-> N]|[-> [u Hu]]].
  - split; [auto|discriminate].
  - split; [congruence|]. intros K. destruct (K u Hu).
Qed.

Lemma owed_leased x c m : FInv x -> c_up (chs x c) = true -> owed (chs x c) m -> between_broadcasts x (pubof c) -> held_in (p_bp (pubs x (pubof c))) c (m mod nb c).
Proof.
  intros [[[A B] SI] G] Up O Bt. destruct (B c) as [_ _ _ U]. specialize (U Up). destruct (u_owed _ _ _ _ _ _ _ _ _ U m O) as [_ [H|H]]; [exact H|].
  unfold exc_of in H. unfold between_broadcasts in Bt. destruct (p_phase _); contradiction.
Qed.

Lemma held_blocks x p m : reach cfg x -> between_broadcasts x p -> outstanding cfg x p m -> exists u, leased (p_bp (pubs x p)) u (slot_of cfg p m).
Proof.
  intros R Bt (s & c & <- & Up & H). pose proof (reach_FInv cfg W x R) as F. exists c. apply (owed_leased x c m F Up); [|exact Bt].
  destruct F as [[[A B] SI] G]. destruct (B c) as [_ _ _ U]. specialize (U Up). destruct (u_pend _ _ _ _ _ _ _ _ _ U s m (or_introl H)) as (_ & _ & [K|[]]). right; right; left. exact K.
Qed.

Lemma leased_answers x p u b : reachw cfg x -> leased (p_bp (pubs x p)) u b -> pubof u = p /\ In u (p_chans (pubs x p)) /\
  (c_up (chs x u) = true -> exists m, unanswered (chs x u) m /\ slot_of cfg p m = b).
Proof.
  intros R H. destruct (reachw_live cfg W x R) as (F & V & _). pose proof (v_in _ _ V p u b H) as Hin. destruct F as [[[A B] SI] G].
  destruct (g_chans _ _ _ _ (g_pc _ _ _ _ (G p)) u Hin) as [<- _]. split; [reflexivity|]. split; [exact Hin|]. intros Up.
  destruct (v_owed _ _ V u b Up H) as (m & Om & E). exists m. split; [exact Om|exact E].
Qed.

(** C19 *)
Lemma all_free_iff n b : bp_inv n b -> (bp_sync_passes b = true <-> forall u i, ~ leased b u i).
Proof.
  intros I. unfold bp_sync_passes. rewrite (inv_all _ _ I), (inv_pressure _ _ I). split.
  - intros H u i (l & E & Hb). assert (Zc : count_busy (buffers b) = 0) by lia. pose proof (nth_error_In _ _ E) as Hin.
    pose proof (proj1 (count_busy_zero _) Zc l Hin) as Em. destruct (inv_buf _ _ I l Hin) as [H1 _]. apply H1 in Em. rewrite Em in Hb. destruct Hb.
  - intros A. enough (count_busy (buffers b) = 0) by lia. apply count_busy_zero. intros l Hb. apply (inv_buf _ _ I l Hb).
    destruct (leases l) as [|u q] eqn:El; [reflexivity|]. exfalso. apply In_nth_error in Hb as [i Hi]. apply (A u i). exists l. split; [exact Hi|]. rewrite El. now left.
Qed.

Lemma sync_barrier x p : reach cfg x -> bp_sync_passes (p_bp (pubs x p)) = true -> between_broadcasts x p ->
  (forall m, ~ outstanding cfg x p m) /\
  (forall c, pubof c = p -> c_up (chs x c) = true -> c_next (chs x c) = length (p_sent (pubs x p)) /\ forall m, ~ unanswered (chs x c) m).
Proof.
  intros R S Bt. pose proof (reach_FInv cfg W x R) as F. assert (N : forall u i, ~ leased (p_bp (pubs x p)) u i).
  { destruct F as [[[A B] SI] G]. now apply (all_free_iff (nbuf cfg p)). }
  split.
  - intros m H. destruct (held_blocks x p m R Bt H) as [u Hu]. exact (N _ _ Hu).
  - intros c <- Up. assert (Nu : forall m, ~ unanswered (chs x c) m).
    { intros m H. exact (N _ _ (owed_leased x c m F Up H Bt)). }
    split; [|exact Nu]. destruct F as [[[A B] SI] G]. destruct (B c) as [_ _ _ U]. specialize (U Up). pose proof (u_sent _ _ _ _ _ _ _ _ _ U) as Us.
    assert (Wi : rem (chs x c) ++ map fid (c_wire (chs x c)) = []).
    { destruct (rem (chs x c)) as [|i l] eqn:Er; cbn.
      - destruct (c_wire (chs x c)) as [|f w] eqn:Ew; [reflexivity|]. exfalso. apply (Nu (fid f)). left. rewrite Ew. now left.
      - exfalso. apply (Nu i). right; left. change (In i (rem (chs x c))). rewrite Er. now left. }
    rewrite Wi in Us. cbn in Us. unfold lag_of in Us. unfold between_broadcasts in Bt. unfold total in Us. destruct (p_phase (pubs x (pubof c))); try contradiction; lia.
Qed.

(** Publishers other than the one acting change only their lease table. *)
Definition pubkeep x y p : Prop := p_sent (pubs y p) = p_sent (pubs x p) /\ p_run (pubs y p) = p_run (pubs x p) /\ p_phase (pubs y p) = p_phase (pubs x p).
Lemma keep_refl x p : pubkeep x x p. Proof. repeat split. Qed.
Lemma keep_trans x y z p : pubkeep x y p -> pubkeep y z p -> pubkeep x z p.
Proof. intros (A & B & C) (D & E & H). repeat split; congruence. Qed.
Lemma keep_core x y p : core x y -> pubkeep x y p.
Proof. intros K. unfold pubkeep. rewrite (k_pub _ _ K). repeat split. Qed.
Lemma keep_pubs x y p : pubs y p = pubs x p -> pubkeep x y p. Proof. intros E. unfold pubkeep. rewrite E. repeat split. Qed.
Lemma keep_setP x q P' p : (q = p -> p_sent P' = p_sent (pubs x p) /\ p_run P' = p_run (pubs x p) /\ p_phase P' = p_phase (pubs x p)) -> pubkeep x (setP x q P') p.
Proof. intros H. unfold pubkeep. cbn. unfold upd. destruct (Nat.eqb_spec p q) as [->|]; [apply H; reflexivity|repeat split]. Qed.
Lemma keep_receive x c e p : pubkeep x (receive cfg x c e) p.
Proof.
  unfold receive. cbn zeta. set (y := setC x c _). assert (pubkeep x (notify cfg y c (e_id e)) p).
  { apply keep_trans with (y := y); [now apply keep_pubs|]. apply keep_core, core_notify_list. }
  destruct (anyone _ _ _ _); [assumption|]. eapply keep_trans; [eassumption|]. now apply keep_pubs.
Qed.
Lemma keep_put_local x c m o p : pubkeep x (put_local cfg x c m o) p.
Proof.
  unfold put_local. cbn zeta. set (y := setC x c _). assert (pubkeep x (notify cfg y c m) p).
  { apply keep_trans with (y := y); [now apply keep_pubs|]. apply keep_core, core_notify_list. }
  destruct (anyone _ _ _ _); [|assumption]. eapply keep_trans; [eassumption|]. set (z := notify cfg y c m).
  eapply keep_trans with (y := setC z c _); [now apply keep_pubs|]. apply keep_setP. intros <-. repeat split.
Qed.
Lemma keep_next x q o l p : q <> p -> pubkeep x (next_channel cfg x q o l) p.
Proof. intros N. apply keep_pubs. destruct l; cbn; rewrite upd_other by auto; reflexivity. Qed.
Lemma keep_start x q o grow p : q <> p -> pubkeep x (start cfg x q o grow) p.
Proof.
  intros N. unfold start. cbn zeta. set (y := setP x q _). set (z := match find _ _ with Some _ => _ | None => _ end).
  assert (pubkeep x z p).
  { apply keep_trans with (y := y); [apply keep_setP; congruence|]. unfold z. destruct (find _ _); [apply keep_put_local|apply keep_refl]. }
  destruct (existsb _ _); [destruct grow|]; (eapply keep_trans; [eassumption|]).
  - apply keep_setP; congruence.
  - eapply keep_trans; [|now apply keep_next]. apply keep_setP; congruence.
  - now apply keep_next.
Qed.
Lemma keep_try x q o grow p : q <> p -> pubkeep x (try_send cfg x q o grow) p.
Proof. intros N. unfold try_send. cbn zeta. destruct (bp_available _ _) as [[]|]; [now apply keep_start|..]; apply keep_setP; congruence. Qed.
Lemma keep_take x c m g p : pubkeep x (take_shm cfg x c m g) p.
Proof. unfold take_shm. cbn zeta. destruct (entry_of_slot _ _ _) as [e|]; [|now apply keep_pubs]. destruct (e_id e =? m); [apply keep_receive|now apply keep_pubs]. Qed.

Definition halted x p : Prop := p_run (pubs x p) = false /\ stoppable x p.
Lemma keep_halted x y p : pubkeep x y p -> halted x p -> halted y p /\ p_sent (pubs y p) = p_sent (pubs x p).
Proof. intros (A & B & C) [H1 H2]. unfold halted, stoppable in *. now rewrite B, C. Qed.

Lemma step_halted x l x' p : halted x p -> l <> LResume p -> step x l = Some x' -> halted x' p /\ p_sent (pubs x' p) = p_sent (pubs x p).
Proof.
  intros H Nl St. assert (K : pubkeep x x' p -> halted x' p /\ p_sent (pubs x' p) = p_sent (pubs x p)) by (intros Q; eapply keep_halted; eauto).
  pose proof H as [Hr Hs]. unfold stoppable in Hs.
  destruct l as [q o grow|q grow|q|q|q|q|q|c|c|c|s|s k|c|c|c|s c|s q]; cbn in St;
    try (destruct (Nat.eq_dec q p) as [->|N]).
  - destruct (p_phase (pubs x p)); try discriminate. rewrite Hr in St. injection St as <-. split; [split|]; unfold stoppable; cbn; rewrite upd_same; auto.
  - destruct (p_phase (pubs x q)); try discriminate. injection St as <-. apply K. destruct (p_run (pubs x q)); [now apply keep_try|apply keep_setP; congruence].
  - destruct (p_phase (pubs x p)) as [|o []|o| |]; try discriminate; destruct Hs.
  - destruct (p_phase (pubs x q)) as [|o []|o| |]; try discriminate.
    + injection St as <-. apply K. now apply keep_try.
    + destruct (bp_available _ _) as [[]|]; try discriminate. injection St as <-. apply K. now apply keep_start.
  - destruct (p_phase (pubs x p)); try discriminate. destruct Hs.
  - destruct (p_phase (pubs x q)); try discriminate. injection St as <-. apply K. unfold grown. cbn zeta. eapply keep_trans; [|now apply keep_next].
    apply keep_pubs. cbn. now rewrite !upd_other by auto.
  - destruct (p_phase (pubs x p)); try discriminate. destruct Hs.
  - destruct (p_phase (pubs x q)); try discriminate. injection St as <-. apply K. eapply keep_trans; [|now apply keep_next]. apply keep_setP; congruence.
  - destruct (p_phase (pubs x p)); try discriminate. destruct Hs.
  - destruct (p_phase (pubs x q)); try discriminate. destruct (c_up _); [discriminate|]. injection St as <-. apply K. now apply keep_next.
  - injection St as <-. apply K. apply keep_setP. intros _. repeat split. now rewrite Hr.
  - injection St as <-. apply K. apply keep_setP; congruence.
  - congruence.
  - injection St as <-. apply K. apply keep_setP; congruence.
  - destruct (c_up (chs x c)); [|discriminate]. destruct (c_re (chs x c)); [discriminate|]. destruct (c_wire (chs x c)) as [|[m g|m o] w]; [discriminate|..].
    + destruct (c_gen (chs x c) =? g); injection St as <-; apply K; [|now apply keep_pubs]. eapply keep_trans; [|apply keep_take]. now apply keep_pubs.
    + injection St as <-. apply K. eapply keep_trans; [|apply keep_receive]. now apply keep_pubs.
  - destruct (c_up (chs x c)); [|discriminate]. destruct (c_re (chs x c)) as [[[keys m] g]|]; [|discriminate].
    destruct (reput _ _ _ _ _ _); injection St as <-; apply K; [|now apply keep_pubs]. eapply keep_trans; [|apply keep_take]. now apply keep_pubs.
  - destruct (c_ackw (chs x c)); [discriminate|]. destruct (existsb _ _); [|discriminate]. injection St as <-. apply K. unfold pubkeep. cbn. unfold upd.
    destruct (Nat.eqb_spec p (pubof c)) as [->|]; repeat split.
  - destruct (s_queue (sbs x s)) as [|[p' m] w]; [discriminate|]. cbn in St. destruct (s_chan (sbs x s) p') as [c|]; [|injection St as <-; apply K; now apply keep_pubs].
    destruct (cache_get (c_cache (chs x c)) m); injection St as <-; apply K; [now apply keep_pubs|]. eapply keep_trans; [|apply keep_core, core_release]. now apply keep_pubs.
  - destruct (nth_error (s_reading (sbs x s)) k); [|discriminate]. injection St as <-. apply K. eapply keep_trans; [|apply keep_core, core_release]. now apply keep_pubs.
  - destruct (c_born (chs x c)); [discriminate|]. apply K.
    destruct (p_phase (pubs x (pubof c))) eqn:Ph; try discriminate; (destruct (_ && _); [discriminate|]; injection St as <-; unfold pubkeep; cbn; unfold upd;
      destruct (Nat.eqb_spec p (pubof c)) as [->|]; cbn; rewrite ?Ph; repeat split).
  - destruct (c_up (chs x c)); [|discriminate]. injection St as <-. apply K. now apply keep_pubs.
  - destruct (c_up (chs x c)); [discriminate|]. apply K.
    destruct (p_phase (pubs x (pubof c))) eqn:Ph; try discriminate; (destruct (existsb _ _); [|discriminate]; injection St as <-; unfold pubkeep; cbn; unfold upd;
      destruct (Nat.eqb_spec p (pubof c)) as [->|]; cbn; rewrite ?Ph; repeat split).
  - destruct (c_up (chs x c)); [|discriminate]. destruct (s_chan _ _); [discriminate|]. injection St as <-. apply K. now apply keep_pubs.
  - destruct (s_chan _ _); [|discriminate]. injection St as <-. apply K. now apply keep_pubs.
  - destruct (s_chan _ _); [|discriminate]. injection St as <-. apply K. now apply keep_pubs.
Qed.

Lemma paused_silent ls : forall x y p, p_run (pubs x p) = false -> stoppable x p -> ~ In (LResume p) ls -> run cfg x ls = Some y ->
  p_sent (pubs y p) = p_sent (pubs x p).
Proof.
  induction ls as [|l ls IH]; intros x y p Hr Hs Nl Ru; cbn in Ru; [now injection Ru as <-|].
  destruct (step x l) as [x'|] eqn:St; [|discriminate].
  destruct (step_halted x l x' p (conj Hr Hs)) as [[Hr' Hs'] E]; [intros ->; apply Nl; now left|exact St|].
  rewrite <- E. apply IH; auto. intros K. apply Nl. now right.
Qed.

Lemma resume_wakes x p o grow : p_phase (pubs x p) = Idle -> p_run (pubs x p) = false ->
  exists y, step x (LBroadcast p o grow) = Some y /\ p_sent (pubs y p) = p_sent (pubs x p) /\
    (forall g, step y (LProceed p g) = None) /\
    exists z, step y (LResume p) = Some z /\ p_run (pubs z p) = true /\ forall g, step z (LProceed p g) <> None.
Proof.
  intros Ph Ru. cbn [PubSubModel.step]. rewrite Ph, Ru. eexists. split; [reflexivity|]. cbn. rewrite !upd_same. cbn.
  split; [reflexivity|]. split; [reflexivity|]. eexists. split; [reflexivity|]. cbn. rewrite !upd_same. cbn. split; [reflexivity|]. intros g. discriminate.
Qed.

(** C20 *)
Lemma drains_free x : reachw cfg x -> calm x ->
  exists bound, forall n y, drains cfg n x y -> n <= bound /\
    ((forall z, ~ drain1 cfg y z) ->
       (forall s, s_queue (sbs y s) = [] /\ s_reading (sbs y s) = []) /\
       (forall p, bp_sync_passes (p_bp (pubs y p)) = true) /\
       (forall p grow, waits_for_buffer y p -> step y (LProceed p grow) <> None)).
Proof.
  intros R Ca. destruct (drains_to_free cfg W x R Ca) as [B H].
  destruct (reachw_live cfg W x R) as (F & V & Pr & _). destruct (reach_sup cfg W x (reachw_reach cfg x R)) as [N S].
  set (kcl := fun c => length (c_clients (chs x c))).
  exists B. intros n y D. destruct (H n y D) as [L K]. split; [exact L|]. intros St. destruct (K St) as (A1 & A2 & A3).
  destruct (drains_ok cfg W kcl N n x y D) as [Gy _]; [constructor; auto|]. destruct (gs_inv _ _ _ _ Gy) as [[[A _] _] _].
  split; [exact A1|]. split.
  - intros p. apply (all_free_iff (nbuf cfg p)); auto.
  - intros p grow [o Ph]. cbn. rewrite Ph.
    destruct (available_dec (nbuf cfg p) (p_bp (pubs y p)) _ (A p) (slot_lt p (p_nxt (pubs y p)))) as [[-> _]|[_ [u Hu]]]; [discriminate|destruct (A2 _ _ _ Hu)].
Qed.

(** C22 *)
Lemma lost_process x c y : reach cfg x -> step x (LPubDown c) = Some y ->
  (forall u b, leased (p_bp (pubs y (pubof c))) u b <-> leased (p_bp (pubs x (pubof c))) u b /\ u <> c) /\
  (forall p, p <> pubof c -> pubs y p = pubs x p) /\ (forall d, chs y d = chs x d) /\ (forall s, sbs y s = sbs x s) /\
  p_sent (pubs y (pubof c)) = p_sent (pubs x (pubof c)) /\ p_phase (pubs y (pubof c)) = p_phase (pubs x (pubof c)).
Proof.
  intros R St. cbn in St. destruct (c_up (chs x c)); [discriminate|].
  assert (Q : forall u b, held_in (bp_free c None (p_bp (pubs x (pubof c)))) u b <-> held_in (p_bp (pubs x (pubof c))) u b /\ u <> c).
  { intros u b. rewrite held_free. intuition. }
  destruct (p_phase (pubs x (pubof c))) eqn:Ph; try discriminate; (destruct (existsb _ _); [|discriminate]; injection St as <-; cbn; rewrite !upd_same; cbn;
    split; [exact Q|]; split; [intros p N; now rewrite upd_other by auto|auto 8]).
Qed.

Lemma crash_isolated x c y : step x (LChanDown c) = Some y ->
  (forall p, pubs y p = pubs x p) /\ (forall d, d <> c -> chs y d = chs x d) /\ (forall s, sbs y s = sbs x s).
Proof. cbn. destruct (c_up (chs x c)); [|discriminate]. intros [= <-]. cbn. repeat split; auto. intros d N. now rewrite upd_other by auto. Qed.

Lemma crash_anytime x c : reach cfg x -> c_up (chs x c) = true -> between_broadcasts x (pubof c) ->
  exists y z, step x (LChanDown c) = Some y /\ step y (LPubDown c) = Some z.
Proof.
  intros R Up Bt. destruct (reach_FInv cfg W x R) as [[[A B] SI] G]. destruct (B c) as [_ _ _ U]. specialize (U Up).
  pose proof (u_in _ _ _ _ _ _ _ _ _ U) as Hin. cbn. rewrite Up.
  assert (Ex : existsb (Nat.eqb c) (p_chans (pubs x (pubof c))) = true) by (apply existsb_exists; exists c; split; [exact Hin|apply Nat.eqb_refl]).
  exists (chan_down x c). cbn. rewrite upd_same. cbn. rewrite Ex. unfold between_broadcasts in Bt. destruct (p_phase (pubs x (pubof c))); try contradiction; eauto.
Qed.

Lemma crash_while_sending x p o c todo : p_phase (pubs x p) = Draining o c todo -> c_up (chs x c) = false ->
  exists y, step x (LDrainFail p) = Some y /\ forall u b, leased (p_bp (pubs y p)) u b <-> leased (p_bp (pubs x p)) u b.
Proof.
  intros Ph Up. cbn. rewrite Ph, Up. eexists. split; [reflexivity|]. intros u b. destruct todo; cbn; rewrite upd_same; cbn; reflexivity.
Qed.

(** C21 *)
Lemma leave_keeps_reachw x s p y : reachw cfg x -> leave_ok cfg x (LLeave s p) -> step x (LLeave s p) = Some y -> reachw cfg y.
Proof.
  intros R Lv St. destruct (reachw_live cfg W x R) as (F & V & Pr & K). eapply reachw_step with (l := LLeave s p); [exact R|exact I|exact Lv|exact St|..]; cbn in St;
    (destruct (s_chan (sbs x s) p) as [c|] eqn:E; [|discriminate]); injection St as <-.
  - intros q o cur todo Ph. cbn in Ph. specialize (Pr q o cur todo Ph). cbn. unfold upd. destruct (Nat.eqb_spec cur c) as [->|]; exact Pr.
  - intros d keys m g i. cbn. intros Up Re Hi.
    assert (Q : exists t, holds cfg x t d i).
    { unfold upd in Up, Re. destruct (Nat.eqb_spec d c) as [->|]; eapply (K _ keys m g); eauto. }
    destruct Q as [t Ht]. exists t. destruct (Nat.eq_dec t s) as [->|N].
    + destruct (Nat.eq_dec (pubof d) p) as [Ep|Np]; [exfalso; exact (Lv d i Ep Ht)|].
      destruct Ht as [H1 H2]. unfold holds. cbn. rewrite !upd_same. cbn. rewrite upd_other by auto. split; [exact H1|].
      destruct H2 as [H2|(r & Hr & Hs & Hp & Hid)]; [left|right].
      * apply filter_In. split; [exact H2|]. cbn. now apply negb_true_iff, Nat.eqb_neq.
      * exists r. split; [|auto]. apply in_map_iff. exists r. split; [|exact Hr]. rewrite Hp. destruct (Nat.eqb_spec (pubof d) p); [contradiction|reflexivity].
    + unfold holds in *. cbn. rewrite !upd_other by auto. exact Ht.
Qed.

Lemma last_leaver x s p c : reach cfg x -> s_chan (sbs x s) p = Some c -> c_up (chs x c) = true -> between_broadcasts x p ->
  exists y z w, step x (LLeave s p) = Some y /\ step y (LChanDown c) = Some z /\ step z (LPubDown c) = Some w /\
    (forall b, ~ leased (p_bp (pubs w p)) c b) /\ forall u b, u <> c -> (leased (p_bp (pubs w p)) u b <-> leased (p_bp (pubs x p)) u b).
Proof.
  intros R E Up Bt. pose proof (reach_FInv cfg W x R) as F.
  assert (Ep : pubof c = p) by (destruct F as [[_ [SI _]] _]; apply (b_conn _ _ _ _ _ (SI s) p c E)).
  destruct (step x (LLeave s p)) as [y|] eqn:Sy; [|cbn in Sy; rewrite E in Sy; discriminate].
  assert (Ry : reach cfg y) by (eapply reach_step with (l := LLeave s p); [exact R| |exact Sy]; exact I).
  assert (Qp : pubs y = pubs x) by (cbn in Sy; rewrite E in Sy; now injection Sy as <-).
  assert (Uy : c_up (chs y c) = true) by (cbn in Sy; rewrite E in Sy; injection Sy as <-; cbn; rewrite upd_same; exact Up).
  assert (By : between_broadcasts y (pubof c)) by (unfold between_broadcasts in *; rewrite Qp, Ep; exact Bt).
  destruct (crash_anytime y c Ry Uy By) as (z & w & Sz & Sw).
  assert (Rz : reach cfg z) by (eapply reach_step with (l := LChanDown c); [exact Ry| |exact Sz]; exact I).
  destruct (crash_isolated y c z Sz) as (Qz & _). destruct (lost_process z c w Rz Sw) as (L & _). rewrite Ep in L. rewrite Qz, Qp in L.
  exists y, z, w. repeat split; auto.
  - intros b H. apply L in H as [_ H]. congruence.
  - intros H1. apply L in H1 as [H1 _]. exact H1.
  - intros H1. apply L. auto.
Qed.
End Proofs.
