(** The invariant, subscriber layer, and its preservation by notifications and releases. *)
From Coq Require Import List ZArith Arith Bool Lia.
From Verif Require Import BackpressureModel BackpressureProofs CacheModel CacheProofs TransportModel PubSubModel PubSubSpec PubSubInv.
Import ListNotations.

Section Sub.
Context {Obj : Type}.
Variable cfg : config.
Hypothesis W : wf cfg.
Notation st := (st Obj).
Notation pubst := (pubst Obj).
Notation chst := (chst Obj).
Notation sbst := (sbst Obj).
Notation CInv := (CInv cfg).
Notation nb := (nb cfg).
Notation pubof := (pubof cfg).

Notation ch_inv := (ch_inv cfg).
Notation up_inv := (up_inv cfg).
Implicit Types x y z : st.
Implicit Types P : pubst.
Implicit Types C : chst.

Definition qids (p : nat) (q : list (nat * nat)) : list nat := map snd (filter (fun n => fst n =? p) q).

(** Subscriber [s] has been notified of message [m] of channel [c] and has not released it. *)
Definition pend (x : st) (s c m : nat) : Prop :=
  s_chan (sbs x s) (pubof c) = Some c /\
  (In (pubof c, m) (s_queue (sbs x s)) \/
   exists r, In r (s_reading (sbs x s)) /\ r_stale r = false /\ r_pub r = pubof c /\ r_id r = m).

Definition nonstale (r : rd Obj) : bool := negb (r_stale r).
Definition rkey (r : rd Obj) : nat * nat := (r_pub r, r_id r).

(** One subscriber, given the next expected message of each channel and the publishers. *)
Record sb_inv (s : nat) (next : nat -> nat) (x : st) (S : sbst) : Prop := {
  b_conn : forall p c, s_chan S p = Some c -> pubof c = p /\ In s (c_clients (chs x c)) /\ c_born (chs x c) = true;
  b_order : forall p c, s_chan S p = Some c -> s_join S p <= next c /\
              map ev_id (s_hist S p) ++ qids p (s_queue S) = seq (s_join S p) (next c - s_join S p);
  b_off : forall p, s_chan S p = None -> qids p (s_queue S) = [];
  b_read : forall r, In r (s_reading S) -> r_stale r = false ->
              s_chan S (r_pub r) = Some (r_chan r) /\ exists v, In (EGot (r_id r) v) (s_hist S (r_pub r));
  b_stale : forall r, In r (s_reading S) -> r_stale r = true -> s_chan S (r_pub r) = None /\ r_pub r = pubof (r_chan r);
  b_nodup : NoDup (map rkey (filter nonstale (s_reading S)));
  b_vals : forall p m v, In (EGot m v) (s_hist S p) -> v <> None /\ v = nth_error (p_sent (pubs x p)) m;
  b_hgood : forall r, In r (s_reading S) -> r_stale r = false -> c_up (chs x (r_chan r)) = true ->
              hgood (nbuf cfg (r_pub r)) (pubs x (r_pub r)) (r_id r) (r_h r) /\ hkind (is_shm cfg (r_chan r)) (r_h r);
  b_len : forall k, maxq cfg s = Some k -> (0 < k)%Z -> (Z.of_nat (length (s_queue S)) <= k)%Z;
  b_leaky : forall p m, In (EDrop m) (s_hist S p) -> exists k, maxq cfg s = Some k /\ (0 < k)%Z }.

Definition SInv (next : nat -> nat -> nat) (x : st) : Prop :=
  (forall s, sb_inv s (next s) x (sbs x s)) /\
  (forall c s, In s (c_clients (chs x c)) -> s_chan (sbs x s) (pubof c) = Some c) /\
  (forall c, NoDup (c_clients (chs x c))).

Definition none3 (_ _ _ : nat) : Prop := False.
Definition Inv (ext : nat -> nat -> nat -> Prop) exc exc2 lag next (x : st) : Prop :=
  CInv (fun s c m => pend x s c m \/ ext s c m) exc exc2 lag x /\ SInv next x.

(** What releases and notifications do not change. *)
Record core (x x' : st) : Prop := {
  k_pub : forall p, pubs x' p = with_bp (pubs x p) (p_bp (pubs x' p));
  k_born : forall c, c_born (chs x' c) = c_born (chs x c);
  k_up : forall c, c_up (chs x' c) = c_up (chs x c);
  k_gen : forall c, c_gen (chs x' c) = c_gen (chs x c);
  k_next : forall c, c_next (chs x' c) = c_next (chs x c);
  k_wire : forall c, c_wire (chs x' c) = c_wire (chs x c);
  k_clients : forall c, c_clients (chs x' c) = c_clients (chs x c);
  k_re : forall c, c_re (chs x' c) = c_re (chs x c) }.

Lemma with_bp_id (P : pubst) : P = with_bp P (p_bp P).
Proof. destruct P; reflexivity. Qed.

Lemma core_refl x : core x x.
Proof. constructor; intros; try reflexivity. apply with_bp_id. Qed.

Lemma core_trans x y z : core x y -> core y z -> core x z.
Proof.
  intros A B. constructor; intros; try (etransitivity; [apply B|apply A]).
  rewrite (k_pub _ _ B p) at 1. rewrite (k_pub _ _ A p). reflexivity.
Qed.

Lemma core_eq x x' : (forall p, pubs x' p = pubs x p) -> (forall c, chs x' c = chs x c) -> core x x'.
Proof. intros A B. constructor; intros; rewrite ?B; try reflexivity. rewrite A. apply with_bp_id. Qed.

Lemma core_release x c m s : core x (release cfg x c m s).
Proof.
  constructor.
  - intros q. rewrite release_pubs. destruct (Nat.eqb_spec q (pubof c)) as [->|_]; [|apply with_bp_id].
    destruct (rel_pub_bp (pubs x (pubof c)) (chs x c) (own cfg c) c (slot_of cfg (pubof c) m) m s) as [E|E]; rewrite E;
      [apply with_bp_id|reflexivity].
  - intros d. rewrite release_chs. destruct (Nat.eqb_spec d c) as [->|_]; [|reflexivity]. unfold rel_chan. cbn zeta.
    destruct (bp_available _ _) as [[|]|]; try reflexivity. destruct (cache_release _ _) as [k [|]]; [|reflexivity].
    destruct (own cfg c); reflexivity.
  - intros d. rewrite release_chs. destruct (Nat.eqb_spec d c) as [->|_]; [|reflexivity]. unfold rel_chan. cbn zeta.
    destruct (bp_available _ _) as [[|]|]; try reflexivity. destruct (cache_release _ _) as [k [|]]; [|reflexivity].
    destruct (own cfg c); reflexivity.
  - intros d. rewrite release_chs. destruct (Nat.eqb_spec d c) as [->|_]; [|reflexivity]. unfold rel_chan. cbn zeta.
    destruct (bp_available _ _) as [[|]|]; try reflexivity. destruct (cache_release _ _) as [k [|]]; [|reflexivity].
    destruct (own cfg c); reflexivity.
  - intros d. rewrite release_chs. destruct (Nat.eqb_spec d c) as [->|_]; [|reflexivity]. unfold rel_chan. cbn zeta.
    destruct (bp_available _ _) as [[|]|]; try reflexivity. destruct (cache_release _ _) as [k [|]]; [|reflexivity].
    destruct (own cfg c); reflexivity.
  - intros d. rewrite release_chs. destruct (Nat.eqb_spec d c) as [->|_]; [|reflexivity]. unfold rel_chan. cbn zeta.
    destruct (bp_available _ _) as [[|]|]; try reflexivity. destruct (cache_release _ _) as [k [|]]; [|reflexivity].
    destruct (own cfg c); reflexivity.
  - intros d. rewrite release_chs. destruct (Nat.eqb_spec d c) as [->|_]; [|reflexivity]. unfold rel_chan. cbn zeta.
    destruct (bp_available _ _) as [[|]|]; try reflexivity. destruct (cache_release _ _) as [k [|]]; [|reflexivity].
    destruct (own cfg c); reflexivity.
  - intros d. rewrite release_chs. destruct (Nat.eqb_spec d c) as [->|_]; [|reflexivity]. unfold rel_chan. cbn zeta.
    destruct (bp_available _ _) as [[|]|]; try reflexivity. destruct (cache_release _ _) as [k [|]]; [|reflexivity].
    destruct (own cfg c); reflexivity.
Qed.

(** A release does not take away another message. *)
Lemma release_has (x : st) c m s d m' : cgood (nb c) (c_cache (chs x c)) -> ~ (d = c /\ m' = m) ->
  has (chs x d) m' -> has (chs (release cfg x c m s) d) m'.
Proof.
  intros G N H. rewrite release_chs. destruct (Nat.eqb_spec d c) as [->|_]; [|exact H].
  assert (Q : forall C', c_re C' = c_re (chs x c) -> c_cache C' = c_cache (chs x c) \/ c_cache C' = fst (cache_release (c_cache (chs x c)) m) -> has C' m').
  { intros C' E1 E2. destruct H as [[h K]|K].
    - left. exists h. unfold cached in *. destruct E2 as [->| ->]; [exact K|].
      rewrite (get_release (nb c)); auto using nb_pos. destruct (Nat.eqb_spec m m'); [exfalso; apply N; auto|exact K].
    - right. unfold rekeys in *. now rewrite E1. }
  unfold rel_chan. cbn zeta. destruct (bp_available _ _) as [[|]|]; try (apply Q; auto; fail).
  cbn [c_cache with_cbp]. destruct (cache_release (c_cache (chs x c)) m) as [k [|]]; [|apply Q; auto].
  destruct (own cfg c); apply Q; auto.
Qed.

Lemma own_local c : is_local cfg c = true -> own cfg c = true.
Proof. unfold is_local. destruct (kind cfg c) eqn:E; try discriminate. intros _. now apply (wf_own cfg W). Qed.

(** Release at the level of the whole state. *)
Lemma release_CInv (pd : nat -> nat -> nat -> Prop) exc exc2 lag x c m s :
  (c_up (chs x c) = true -> forall m', pd s c m' -> m' mod nb c = m mod nb c -> m' = m) ->
  CInv pd exc exc2 lag x ->
  CInv (fun s' c' m' => pd s' c' m' /\ ~ (s' = s /\ c' = c /\ m' = m)) exc exc2 lag (release cfg x c m s).
Proof.
  intros Hu [A B]. pose proof (core_release x c m s) as K. split.
  - intros p. rewrite release_pubs. destruct (Nat.eqb_spec p (pubof c)) as [->|_]; [|apply A].
    destruct (rel_pub_bp (pubs x (pubof c)) (chs x c) (own cfg c) c (slot_of cfg (pubof c) m) m s) as [E|E]; rewrite E; [apply A|].
    cbn. apply bp_free_inv, A.
  - intros d. destruct (Nat.eq_dec d c) as [->|Hd].
    + rewrite release_chs, release_pubs, !Nat.eqb_refl.
      eapply ch_inv_ext; [..|apply (rel_ch_inv cfg (nb c) c _ _ _ _ _ _ (own cfg c) m s (nb_pos cfg W c) (own_local c) Hu (B c))]; auto.
      intros s' m'. cbn. split; intros [? N]; split; auto; intros ?; apply N; tauto.
    + assert (E : chs (release cfg x c m s) d = chs x d).
      { rewrite release_chs. destruct (Nat.eqb_spec d c); [contradiction|reflexivity]. }
      rewrite E. apply (ch_inv_ext cfg (nb d) d _ _ (fun s m => pd s d m) _ (exc d) (exc d) (exc2 d) (exc2 d)); auto.
      { intros s' m'. cbn. split; [|tauto]. intros H. split; auto. intros (_ & ? & _). contradiction. }
      eapply (ch_inv_pub cfg (nb d) d (pubs x (pubof d))); [..|apply B]; try (rewrite (k_pub _ _ K); reflexivity).
      * rewrite (k_pub _ _ K). auto.
      * intros b Hb. rewrite release_pubs. destruct (Nat.eqb_spec (pubof d) (pubof c)) as [Ep|_]; [|exact Hb].
        destruct (rel_pub_bp (pubs x (pubof c)) (chs x c) (own cfg c) c (slot_of cfg (pubof c) m) m s) as [Q|Q]; rewrite Q.
        -- now rewrite <- Ep.
        -- cbn. rewrite held_free. split; [intros [? _]; contradiction|now rewrite <- Ep].
Qed.

Lemma CInv_ext (pd pd' : nat -> nat -> nat -> Prop) (exc exc' exc2 exc2' : nat -> nat -> Prop) lag x :
  (forall s c m, pd s c m <-> pd' s c m) -> (forall c m, exc c m -> exc' c m) -> (forall c m, exc2 c m -> exc2' c m) ->
  CInv pd exc exc2 lag x -> CInv pd' exc' exc2' lag x.
Proof. intros E1 E2 E3 [A B]. split; [exact A|]. intros c. eapply ch_inv_ext; [..|apply B]; cbn; auto. Qed.

Lemma CInv_state pd exc exc2 lag (x x' : st) : pubs x' = pubs x -> chs x' = chs x -> CInv pd exc exc2 lag x -> CInv pd exc exc2 lag x'.
Proof. intros E1 E2 [A B]. split; intros; rewrite E1, ?E2; auto. Qed.

(** Subscriber facts survive changes to publishers and channels that keep the core. *)
Lemma hgood_core n x x' p m h : core x x' -> hgood n (pubs x p) m h -> hgood n (pubs x' p) m h.
Proof. intros K. rewrite (k_pub _ _ K p). apply hgood_keep; reflexivity. Qed.

Lemma sb_inv_core s next x x' S : core x x' -> sb_inv s next x S -> sb_inv s next x' S.
Proof.
  intros K []. constructor; auto.
  - intros p c H. rewrite (k_clients _ _ K), (k_born _ _ K). auto.
  - intros p m v H. rewrite (k_pub _ _ K). cbn. auto.
  - intros r H1 H2 H3. rewrite (k_up _ _ K) in H3. destruct (b_hgood0 r H1 H2 H3). split; [|assumption]. eapply hgood_core; eauto.
Qed.

Lemma SInv_core next x x' : core x x' -> sbs x' = sbs x -> SInv next x -> SInv next x'.
Proof.
  intros K E (A & B & C). split; [|split].
  - intros s. rewrite E. eapply sb_inv_core; eauto.
  - intros c s. rewrite (k_clients _ _ K), E. apply B.
  - intros c. rewrite (k_clients _ _ K). apply C.
Qed.

Lemma SInv_next next next' x : (forall s c, In s (c_clients (chs x c)) -> next s c = next' s c) -> SInv next x -> SInv next' x.
Proof.
  intros E (A & B & C). split; [|split]; auto. intros s. destruct (A s). constructor; auto.
  intros p c H. rewrite <- E by (eapply b_conn0; eauto). eauto.
Qed.

(** Ids of one publisher in a queue. *)
Lemma qids_app p a b : qids p (a ++ b) = qids p a ++ qids p b.
Proof. unfold qids. now rewrite filter_app, map_app. Qed.
Lemma qids_in p m q : In m (qids p q) <-> In (p, m) q.
Proof.
  unfold qids. rewrite in_map_iff. split.
  - intros ([p' m'] & E & H). cbn in E. subst. apply filter_In in H. destruct H as [H E]. cbn in E.
    apply Nat.eqb_eq in E. now subst.
  - intros H. exists (p, m). split; [reflexivity|]. apply filter_In. split; [exact H|]. cbn. apply Nat.eqb_refl.
Qed.

(** Histories and queues have no repeated ids. *)
Lemma order_nodup s next x S p c : sb_inv s next x S -> s_chan S p = Some c -> NoDup (map ev_id (s_hist S p) ++ qids p (s_queue S)).
Proof. intros B H. destruct (b_order _ _ _ _ B p c H) as [_ E]. rewrite E. apply seq_NoDup. Qed.

Lemma NoDup_app_disj {A} (l1 l2 : list A) a : NoDup (l1 ++ l2) -> In a l1 -> In a l2 -> False.
Proof.
  induction l1 as [|y l1 IH]; cbn; [tauto|]. intros N. inversion N; subst. intros [->|H] H'; [|eauto].
  apply H1. apply in_or_app. auto.
Qed.

(** Removing the oldest notification and releasing it: leaky drop and CacheMiss on receive. *)
Lemma hist_upd (S : sbst) p e q : s_hist (log_ev S p e) q = if q =? p then s_hist S p ++ [e] else s_hist S q.
Proof. cbn. unfold upd. destruct (Nat.eqb_spec q p); subst; reflexivity. Qed.

Lemma sb_dequeue s next x S p m q e :
  sb_inv s next x S -> s_queue S = (p, m) :: q -> ev_id e = m ->
  (forall v, e = EGot m v -> v <> None /\ v = nth_error (p_sent (pubs x p)) m) ->
  (e = EDrop m -> exists k, maxq cfg s = Some k /\ (0 < k)%Z) ->
  sb_inv s next x (log_ev (with_queue S q) p e).
Proof.
  intros B Eq Ee Hv Hd. destruct B. constructor; cbn [log_ev with_queue s_chan s_queue s_reading s_join s_hist]; auto.
  - intros p' c H. destruct (b_order0 p' c H) as [L O]. split; [exact L|]. rewrite <- O, Eq. unfold upd.
    unfold qids. cbn [filter fst]. destruct (Nat.eqb_spec p p') as [->|N].
    + rewrite Nat.eqb_refl. cbn [map snd]. rewrite map_app. cbn. rewrite Ee, <- app_assoc. reflexivity.
    + destruct (Nat.eqb_spec p' p); [congruence|]. reflexivity.
  - intros p' H. specialize (b_off0 p' H). rewrite Eq in b_off0. unfold qids in *. cbn in b_off0.
    destruct (p =? p'); [discriminate|exact b_off0].
  - intros r H1 H2. destruct (b_read0 r H1 H2) as (K1 & v & K3). split; auto. exists v. unfold upd.
    destruct (Nat.eqb_spec (r_pub r) p) as [E|_]; [|exact K3]. apply in_or_app. left. now rewrite <- E.
  - intros p' m' v H. unfold upd in H. destruct (Nat.eqb_spec p' p) as [->|_]; [|eauto].
    apply in_app_or in H. destruct H as [H|[H|[]]]; [eauto|]. assert (m' = m) by (rewrite <- Ee, H; reflexivity). subst m'. eauto.
  - intros k H1 H2. specialize (b_len0 k H1 H2). rewrite Eq in b_len0. cbn [length] in b_len0. lia.
  - intros p' m' H. unfold upd in H. destruct (Nat.eqb_spec p' p) as [->|_]; [|eauto].
    apply in_app_or in H. destruct H as [H|[H|[]]]; [eauto|]. assert (m' = m) by (rewrite <- Ee, H; reflexivity). subst m'. auto.
Qed.

Lemma SInv_setS next x s S : sb_inv s (next s) x S -> s_chan S = s_chan (sbs x s) -> SInv next x -> SInv next (setS x s S).
Proof.
  intros B E (A & C & D). split; [|split]; auto.
  - intros t. cbn. unfold upd. destruct (Nat.eqb_spec t s) as [->|_].
    + destruct B. constructor; auto.
    + destruct (A t). constructor; auto.
  - intros c t H. cbn in *. unfold upd. specialize (C c t H). destruct (Nat.eqb_spec t s) as [->|_]; [|exact C]. now rewrite E.
Qed.

(** [pend] after dequeuing the head. *)
Lemma pend_dequeue next x s p m q e c :
  SInv next x -> s_queue (sbs x s) = (p, m) :: q -> s_chan (sbs x s) p = Some c -> ev_id e = m ->
  forall s' c' m', pend (setS x s (log_ev (with_queue (sbs x s) q) p e)) s' c' m' <->
                   pend x s' c' m' /\ ~ (s' = s /\ c' = c /\ m' = m).
Proof.
  intros (A & _ & _) Eq Ec Ee s' c' m'. unfold pend. cbn [sbs setS]. unfold upd.
  destruct (Nat.eqb_spec s' s) as [->|N]; [|split; [intros H; split; [exact H|intros (? & _); congruence]|tauto]].
  cbn [log_ev with_queue s_chan s_queue s_reading]. rewrite Eq.
  pose proof (order_nodup _ _ _ _ _ _ (A s) Ec) as ND. rewrite Eq in ND. unfold qids in ND. cbn [filter fst] in ND. rewrite Nat.eqb_refl in ND.
  cbn [map snd] in ND. fold (qids p q) in ND.
  destruct (b_conn _ _ _ _ (A s) p c Ec) as [Ep _].
  assert (Nq : ~ In (p, m) q).
  { intros H. apply NoDup_remove_2 in ND. apply ND. apply in_or_app. right. now apply qids_in. }
  assert (Nr : forall r, In r (s_reading (sbs x s)) -> r_stale r = false -> r_pub r = p -> r_id r <> m).
  { intros r H1 H2 H3 H4. destruct (b_read _ _ _ _ (A s) r H1 H2) as (_ & v & H5). rewrite H3, H4 in H5.
    apply (NoDup_app_disj _ _ m ND); [|now left]. change m with (ev_id (EGot m v)). now apply in_map. }
  split.
  - intros (H1 & [H2|(r & H2 & H3 & H4 & H5)]).
    + split; [split; [exact H1|left; now right]|]. intros (_ & -> & ->). rewrite Ep in H2. contradiction.
    + split; [split; [exact H1|right; eauto]|]. intros (_ & -> & ->). rewrite Ep in H4. exact (Nr r H2 H3 H4 H5).
  - intros ((H1 & [[H2|H2]|H2]) & N); split; auto. exfalso. apply N. injection H2 as E1 E2. repeat split; auto. congruence.
Qed.

(** Any pending message of one subscriber is unique in its slot. *)
Lemma pend_uniq (pd : nat -> nat -> nat -> Prop) exc exc2 lag x s c m m' : CInv pd exc exc2 lag x -> c_up (chs x c) = true ->
  pd s c m -> pd s c m' -> m' mod nb c = m mod nb c -> m' = m.
Proof.
  intros [_ B] Up H H' E. destruct (B c) as [_ _ _ U]. specialize (U Up).
  exact (pend_slot cfg _ _ _ _ _ _ _ _ s s m m' (nb_pos cfg W c) U H H' E).
Qed.

(** Dequeue the head (with history event [e]) and release it. *)
Lemma take_release_Inv ext exc exc2 lag next x s p m q e c :
  Inv ext exc exc2 lag next x -> s_queue (sbs x s) = (p, m) :: q -> s_chan (sbs x s) p = Some c -> ev_id e = m -> ~ ext s c m ->
  (forall v, e = EGot m v -> v <> None /\ v = nth_error (p_sent (pubs x p)) m) ->
  (e = EDrop m -> exists k, maxq cfg s = Some k /\ (0 < k)%Z) ->
  Inv ext exc exc2 lag next (release cfg (setS x s (log_ev (with_queue (sbs x s) q) p e)) c m s).
Proof.
  intros [CI SI] Eq Ec Ee Nx Hv Hd.
  set (y := setS x s (log_ev (with_queue (sbs x s) q) p e)).
  pose proof (pend_dequeue next x s p m q e c SI Eq Ec Ee) as PD. fold y in PD.
  destruct (b_conn _ _ _ _ (proj1 SI s) p c Ec) as [Ep _].
  assert (Hp : pend x s c m) by (split; [now rewrite Ep|left; rewrite Ep, Eq; now left]).
  set (pd := fun s c m => pend x s c m \/ ext s c m) in *.
  assert (CIy : CInv pd exc exc2 lag y) by (eapply CInv_state; [..|exact CI]; reflexivity).
  split.
  - eapply CInv_ext; [| | |apply (release_CInv pd exc exc2 lag y c m s)]; auto.
    + intros s' c' m'. cbn beta. assert (E : pend (release cfg y c m s) s' c' m' <-> pend y s' c' m') by (unfold pend; rewrite release_sbs; tauto).
      rewrite E, PD. unfold pd. split.
      * intros [[H|H] N]; auto.
      * intros [[H N]|H]; [auto|]. split; [auto|]. intros (-> & -> & ->). contradiction.
    + intros Up m' H E. apply (pend_uniq pd exc exc2 lag x s c m m' CI Up); auto. now left.
  - eapply SInv_core; [apply core_release|apply release_sbs|].
    apply SInv_setS; auto. eapply (sb_dequeue s (next s) x (sbs x s) p m q e); auto. apply SI.
Qed.

(** A head whose publisher is no longer registered cannot exist: [b_off]. *)
Lemma head_registered next x s p m q : SInv next x -> s_queue (sbs x s) = (p, m) :: q -> exists c, s_chan (sbs x s) p = Some c.
Proof.
  intros (A & _) Eq. destruct (s_chan (sbs x s) p) as [c|] eqn:E; [eauto|].
  pose proof (b_off _ _ _ _ (A s) p E) as Q. rewrite Eq in Q. unfold qids in Q. cbn in Q. rewrite Nat.eqb_refl in Q. discriminate.
Qed.

Lemma drop_oldest_core x s : core x (drop_oldest cfg x s).
Proof.
  unfold drop_oldest. destruct (s_queue (sbs x s)) as [|[p m] q]; [apply core_refl|]. cbn zeta.
  assert (K : core x (setS x s (log_ev (with_queue (sbs x s) q) p (EDrop m)))) by (apply core_eq; reflexivity).
  destruct (s_chan _ p) as [c|]; [|exact K]. eapply core_trans; [exact K|apply core_release].
Qed.

Lemma drop_oldest_Inv ext exc exc2 lag next x s :
  Inv ext exc exc2 lag next x -> (forall c m, In (pubof c, m) (s_queue (sbs x s)) -> ~ ext s c m) -> (exists k, maxq cfg s = Some k /\ (0 < k)%Z) -> Inv ext exc exc2 lag next (drop_oldest cfg x s).
Proof.
  intros I Nx L. unfold drop_oldest. destruct (s_queue (sbs x s)) as [|[p m] q] eqn:Eq; [exact I|]. cbn zeta.
  destruct (head_registered next x s p m q (proj2 I) Eq) as [c Ec].
  assert (E : s_chan (sbs (setS x s (log_ev (with_queue (sbs x s) q) p (EDrop m))) s) p = Some c).
  { cbn. rewrite upd_same. exact Ec. }
  destruct (b_conn _ _ _ _ (proj1 (proj2 I) s) p c Ec) as [Ep _].
  rewrite E. apply take_release_Inv; auto; [|intros v H; discriminate]. apply Nx. left. now rewrite Ep.
Qed.

Lemma drop_oldest_other x s t : t <> s -> sbs (drop_oldest cfg x s) t = sbs x t.
Proof.
  intros N. unfold drop_oldest. destruct (s_queue (sbs x s)) as [|[p m] q]; [reflexivity|]. cbn zeta.
  destruct (s_chan _ p) as [c|]; [rewrite release_sbs|]; cbn; now rewrite upd_other.
Qed.

Lemma drop_oldest_self x s : s_chan (sbs (drop_oldest cfg x s) s) = s_chan (sbs x s) /\ s_queue (sbs (drop_oldest cfg x s) s) = tl (s_queue (sbs x s)) /\
  s_reading (sbs (drop_oldest cfg x s) s) = s_reading (sbs x s) /\ s_join (sbs (drop_oldest cfg x s) s) = s_join (sbs x s).
Proof.
  unfold drop_oldest. destruct (s_queue (sbs x s)) as [|[p m] q] eqn:E; [cbn; rewrite ?E; auto|]. cbn zeta.
  destruct (s_chan _ p) as [c|]; [rewrite release_sbs|]; cbn; rewrite upd_same; auto.
Qed.

(** Leasing a message for a subscriber and pushing the notification. *)
Lemma lease_ch_inv n c P C (pd : nat -> nat -> Prop) (exc exc2 : nat -> Prop) lag m s :
  0 < n -> (c_up C = true -> m < c_next C /\ total P <= m + n /\ (has C m \/ exc2 m)) ->
  ch_inv n c P C pd exc exc2 lag ->
  ch_inv n c P (with_cbp C (bp_lease s (m mod n) (c_bp C))) (fun s' m' => pd s' m' \/ (s' = s /\ m' = m)) exc exc2 lag.
Proof.
  intros Hn Hm [A B D U]. split; cbn; auto.
  - intros Q. now apply bp_lease_inv, A.
  - intros Q. specialize (Hm Q). destruct (U Q). specialize (A u_born). constructor; cbn; auto.
    + intros s' b. rewrite held_lease, u_lease. rewrite (inv_len _ _ A). split.
      * intros [(-> & -> & _)|(m' & H1 & H2)]; [exists m; auto|exists m'; auto].
      * intros (m' & [H1|(-> & ->)] & H2); [right; eauto|left]. repeat split; auto. apply mod_lt; auto.
    + intros s' m' [H|(-> & ->)]; [exact (u_pend _ _ H)|exact Hm].
Qed.

Lemma CInv_setC (pd pd' : nat -> nat -> nat -> Prop) exc exc2 lag x c C' :
  (forall s d m, d <> c -> (pd s d m <-> pd' s d m)) ->
  CInv pd exc exc2 lag x ->
  ch_inv (nb c) c (pubs x (pubof c)) C' (fun s m => pd' s c m) (exc c) (exc2 c) (lag c) ->
  CInv pd' exc exc2 lag (setC x c C').
Proof.
  intros E [A B] H. split; [exact A|]. intros d. cbn. unfold upd. destruct (Nat.eqb_spec d c) as [->|N]; [exact H|].
  eapply ch_inv_ext; [..|apply B]; auto. intros s m. cbn. now apply E.
Qed.

(** The notification of one client. *)
Lemma core_push x s p m : core x (push cfg x s p m).
Proof.
  unfold push. cbn zeta. destruct (queue_full cfg x s).
  - eapply core_trans; [apply drop_oldest_core|]. apply core_eq; reflexivity.
  - apply core_eq; reflexivity.
Qed.

Lemma core_notify1 c m x s : core x (notify1 cfg c m x s).
Proof.
  unfold notify1. cbn zeta. eapply core_trans; [|apply core_push].
  constructor; intros; cbn; unfold upd; try apply with_bp_id; destruct (Nat.eqb_spec c0 c) as [->|]; reflexivity.
Qed.

Lemma core_notify_list c m l : forall x, core x (fold_left (notify1 cfg c m) l x).
Proof.
  induction l as [|s l IH]; intros x; cbn [fold_left]; [apply core_refl|].
  eapply core_trans; [apply core_notify1|apply IH].
Qed.

Definition mids (m : nat) (c : nat) (todo : list nat) (next : nat -> nat -> nat) : nat -> nat -> nat :=
  fun s d => if (d =? c) && mem s todo then m else next s d.

Lemma drop_oldest_has ext exc exc2 lag next x s d m' : Inv ext exc exc2 lag next x ->
  ~ In (pubof d, m') (s_queue (sbs x s)) ->
  has (chs x d) m' -> has (chs (drop_oldest cfg x s) d) m'.
Proof.
  intros [[A B] SI] N H. unfold drop_oldest. destruct (s_queue (sbs x s)) as [|[p m] q] eqn:Eq; [exact H|]. cbn zeta.
  destruct (head_registered next x s p m q SI Eq) as [c Ec].
  destruct (b_conn _ _ _ _ (proj1 SI s) p c Ec) as (Ep & _ & Hb).
  assert (E : s_chan (sbs (setS x s (log_ev (with_queue (sbs x s) q) p (EDrop m))) s) p = Some c).
  { cbn. rewrite upd_same. exact Ec. }
  rewrite E. apply release_has; auto.
  - cbn. apply (h_cg _ _ _ _ _ _ _ _ _ (B c)). exact Hb.
  - intros [-> ->]. apply N. left. now rewrite Ep.
Qed.

Lemma sb_push s (next next' : nat -> nat) x Sb p c m :
  sb_inv s next x Sb -> s_chan Sb p = Some c -> next c = m -> next' c = S m -> (forall d, d <> c -> next' d = next d) ->
  (forall k, maxq cfg s = Some k -> (0 < k)%Z -> (Z.of_nat (length (s_queue Sb)) < k)%Z) ->
  sb_inv s next' x (with_queue Sb (s_queue Sb ++ [(p, m)])).
Proof.
  intros [] Ec E1 E2 E3 L. constructor; cbn [with_queue s_chan s_queue s_reading s_join s_hist]; auto.
  - intros p' c' H. destruct (b_order0 p' c' H) as [J O]. rewrite qids_app. unfold qids at 2. cbn [filter fst].
    destruct (Nat.eqb_spec p p') as [->|N].
    + assert (c' = c) by congruence. subst c'. rewrite E2. split; [lia|]. cbn [map snd]. rewrite app_assoc, O.
      replace (S m - s_join Sb p') with (next c - s_join Sb p' + 1) by lia. rewrite seq_app. cbn [seq].
      replace (s_join Sb p' + (next c - s_join Sb p')) with m by lia. reflexivity.
    + cbn. rewrite app_nil_r. rewrite E3; [auto|]. intros ->. destruct (b_conn0 _ _ H) as [? _], (b_conn0 _ _ Ec) as [? _]. congruence.
  - intros p' H. rewrite qids_app, b_off0 by exact H. unfold qids. cbn. destruct (Nat.eqb_spec p p'); [congruence|reflexivity].
  - intros k H1 H2. specialize (L k H1 H2). rewrite app_length. cbn. lia.
Qed.

Lemma notify1_Inv exc exc2 lag next x c m s todo :
  Inv none3 exc exc2 lag (mids m c (s :: todo) next) x ->
  c_next (chs x c) = S m -> In s (c_clients (chs x c)) -> ~ In s todo -> next s c = S m ->
  (c_up (chs x c) = true -> total (pubs x (pubof c)) <= m + nb c /\ (has (chs x c) m \/ exc2 c m)) ->
  Inv none3 exc exc2 lag (mids m c todo next) (notify1 cfg c m x s) /\
  (has (chs x c) m -> has (chs (notify1 cfg c m x s) c) m).
Proof.
  intros [CI SI] Em Hs Ntodo En Hm.
  set (ext := fun s' c' m' => s' = s /\ c' = c /\ m' = m).
  set (y := setC x c (with_cbp (chs x c) (bp_lease s (slot_of cfg (pubof c) m) (c_bp (chs x c))))).
  assert (Ky : core x y).
  { unfold y. constructor; intros; cbn; unfold upd; try apply with_bp_id; destruct (Nat.eqb_spec c0 c) as [->|]; reflexivity. }
  assert (Iy : Inv ext exc exc2 lag (mids m c (s :: todo) next) y).
  { split; [|eapply SInv_core; [exact Ky|reflexivity|exact SI]].
    eapply (CInv_setC (fun s c m => pend x s c m \/ none3 s c m)); [|exact CI|].
    - intros s' d m' N. unfold ext, none3. cbn. split; [tauto|]. intros [H|(_ & ? & _)]; [auto|contradiction].
    - destruct CI as [_ B].
      apply (ch_inv_ext cfg (nb c) c _ _ (fun s' m' => (pend x s' c m' \/ none3 s' c m') \/ (s' = s /\ m' = m)) _ (exc c) (exc c) (exc2 c) (exc2 c)); auto.
      + intros s' m'. unfold ext, none3. cbn. tauto.
      + apply lease_ch_inv; [apply nb_pos, W| |apply B]. intros Up. specialize (Hm Up). split; [lia|exact Hm]. }
  assert (Ec : s_chan (sbs y s) (pubof c) = Some c) by (apply SI; exact Hs).
  assert (Nq : forall m', In (pubof c, m') (s_queue (sbs y s)) -> m' < m).
  { intros m' H. destruct (b_order _ _ _ _ (proj1 SI s) _ _ Ec) as [J O]. cbn [sbs setC] in *.
    assert (K : In m' (seq (s_join (sbs x s) (pubof c)) (mids m c (s :: todo) next s c - s_join (sbs x s) (pubof c)))).
    { rewrite <- O. apply in_or_app. right. now apply qids_in. }
    apply in_seq in K. unfold mids, mem in K. cbn in K. rewrite !Nat.eqb_refl in K. cbn in K. unfold mids, mem in J. cbn in J. rewrite !Nat.eqb_refl in J. cbn in J. lia. }
  set (z := if queue_full cfg y s then drop_oldest cfg y s else y).
  assert (Hz : Inv ext exc exc2 lag (mids m c (s :: todo) next) z /\
               s_chan (sbs z s) = s_chan (sbs y s) /\ core y z /\
               (forall k, maxq cfg s = Some k -> (0 < k)%Z -> (Z.of_nat (length (s_queue (sbs z s))) < k)%Z) /\
               (has (chs y c) m -> has (chs z c) m)).
  { unfold z, queue_full. destruct (maxq cfg s) as [k|] eqn:Mq.
    2:{ refine (conj Iy (conj eq_refl (conj (core_refl _) (conj _ (fun h => h))))). intros; discriminate. }
    destruct (Z.leb_spec k 0) as [Hk|Hk].
    { refine (conj Iy (conj eq_refl (conj (core_refl _) (conj _ (fun h => h))))). intros k' E ?. injection E as <-. lia. }
    destruct (Z.leb_spec k (Z.of_nat (length (s_queue (sbs y s))))) as [Hl|Hl].
    - destruct (drop_oldest_self y s) as (D1 & D2 & _).
      refine (conj _ (conj D1 (conj (drop_oldest_core _ _) (conj _ _)))).
      + apply drop_oldest_Inv; eauto. intros c' m' H (_ & -> & ->). apply Nq in H. lia.
      + intros k' E _. injection E as <-. rewrite D2. pose proof (b_len _ _ _ _ (proj1 (proj2 Iy) s) k Mq Hk).
        destruct (s_queue (sbs y s)); cbn in *; lia.
      + apply (drop_oldest_has _ _ _ _ _ _ _ _ _ Iy). intros H. apply Nq in H. lia.
    - refine (conj Iy (conj eq_refl (conj (core_refl _) (conj _ (fun h => h))))). intros k' E ?. injection E as <-. lia. }
  destruct Hz as (Iz & Ez & Kz & Lz & Hhas). rewrite <- Ez in Ec.
  assert (Enot : notify1 cfg c m x s = setS z s (with_queue (sbs z s) (s_queue (sbs z s) ++ [(pubof c, m)]))) by reflexivity.
  rewrite Enot. split; [|intros H; apply Hhas; unfold y; cbn; rewrite upd_same; exact H].
  destruct Iz as [CIz SIz]. split.
  - eapply CInv_state with (x := z); [reflexivity|reflexivity|]. eapply CInv_ext; [| | |exact CIz]; auto.
    intros s' c' m'. unfold pend, ext, none3. cbn [sbs setS]. unfold upd. destruct (Nat.eqb_spec s' s) as [->|N].
    + cbn [with_queue s_chan s_queue s_reading]. rewrite in_app_iff. cbn [In]. split.
      * intros [(H1 & H2)|(_ & -> & ->)]; left; (split; [assumption|]); tauto.
      * intros [(H1 & [[H2|[H2|[]]]|H2])|[]]; [left; auto| |left; auto]. right. injection H2 as E1 E2. repeat split; auto.
        rewrite <- E1 in H1. congruence.
    + split; [|tauto]. intros [H|(H & _)]; [left; exact H|contradiction].
  - assert (SIz' : SInv (fun t d => if (t =? s) then mids m c (s :: todo) next t d else mids m c todo next t d) z).
    { eapply SInv_next; [|exact SIz]. intros t d Ht. unfold mids, mem. cbn [existsb]. destruct (Nat.eqb_spec t s); [reflexivity|].
      reflexivity. }
    destruct SIz' as (A & B & D). split; [|split]; auto.
    + intros t. cbn [sbs setS]. unfold upd. destruct (Nat.eqb_spec t s) as [->|N].
      * specialize (A s). rewrite Nat.eqb_refl in A.
        assert (E1 : mids m c (s :: todo) next s c = m) by (unfold mids, mem; cbn; now rewrite !Nat.eqb_refl).
        assert (E2 : mem s todo = false) by (destruct (mem s todo) eqn:Q; [apply mem_In in Q; contradiction|reflexivity]).
        assert (P := sb_push s (mids m c (s :: todo) next s) (mids m c todo next s) z (sbs z s) (pubof c) c m A Ec E1).
        destruct P as []; auto.
        { unfold mids. now rewrite Nat.eqb_refl, E2. }
        { intros d Hd. unfold mids. destruct (Nat.eqb_spec d c); [contradiction|reflexivity]. }
        constructor; auto.
      * specialize (A t). destruct (Nat.eqb_spec t s) in A; [contradiction|]. destruct A. constructor; auto.
    + intros d t H. cbn [sbs setS chs] in *. unfold upd. destruct (Nat.eqb_spec t s) as [->|N]; [|apply B; exact H].
      cbn. apply B; exact H.
Qed.

(** The whole loop over the clients. *)
Lemma notify_list_Inv exc exc2 lag next c m : forall l x,
  Inv none3 exc exc2 lag (mids m c l next) x ->
  c_next (chs x c) = S m -> incl l (c_clients (chs x c)) -> NoDup l -> (forall s, In s l -> next s c = S m) ->
  (c_up (chs x c) = true -> total (pubs x (pubof c)) <= m + nb c /\ (has (chs x c) m \/ exc2 c m)) ->
  Inv none3 exc exc2 lag next (fold_left (notify1 cfg c m) l x) /\
  (has (chs x c) m -> has (chs (fold_left (notify1 cfg c m) l x) c) m).
Proof.
  induction l as [|s l IH]; intros x I Em Hl ND Hn Hm; cbn [fold_left].
  - split; [|auto]. destruct I as [CI SI]. split; [exact CI|]. eapply SInv_next; [|exact SI].
    intros s d H. unfold mids. cbn. now rewrite andb_false_r.
  - inversion ND; subst.
    destruct (notify1_Inv exc exc2 lag next x c m s l I Em) as [I1 Hh]; auto.
    { apply Hl. now left. } { apply Hn. now left. }
    pose proof (core_notify1 c m x s) as K.
    destruct (IH (notify1 cfg c m x s) I1) as [I2 Hh2]; auto.
    + now rewrite (k_next _ _ K).
    + rewrite (k_clients _ _ K). intros t Ht. apply Hl. now right.
    + intros t Ht. apply Hn. now right.
    + intros Up. rewrite (k_up _ _ K) in Up. destruct (Hm Up) as [T H]. split.
      * rewrite (k_pub _ _ K). exact T.
      * destruct H; auto.
Qed.
End Sub.
