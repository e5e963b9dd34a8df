(** The invariant is preserved by every transition. *)
From Coq Require Import List ZArith Arith Bool Lia.
From Verif Require Import BackpressureModel BackpressureProofs CacheModel CacheProofs TransportModel PubSubModel PubSubSpec PubSubInv PubSubSub PubSubSteps PubSubSteps2 PubSubSteps3 PubSubSteps4.
Import ListNotations.

Section Steps.
Context {Obj : Type}.
Variable cfg : config.
Hypothesis W : wf cfg.
Notation st := (st Obj).
Notation pubst := (pubst Obj).
Notation chst := (chst Obj).
Notation sbst := (sbst Obj).
Notation CInv := (CInv cfg).
Notation nb := (nb cfg).
Notation pubof := (pubof cfg).
Notation ch_inv := (ch_inv cfg).
Notation up_inv := (up_inv cfg).
Notation SInv := (SInv cfg).
Notation Inv := (Inv cfg).
Notation pend := (pend cfg).
Notation is_local := (is_local cfg).
Notation is_shm := (is_shm cfg).
Notation pchans := (pchans cfg).
Notation todo_ok := (todo_ok cfg).
Notation FInv := (FInv cfg).
Notation pg := (pg cfg).
Notation exc_of := (exc_of cfg).
Notation lag_of := (lag_of cfg).
Implicit Types x y z : st.
Implicit Types P : pubst.
Implicit Types C : chst.
Implicit Types o : Obj.




Lemma FInv_sub x s S :
  FInv x -> (forall s' c m, pend (setS x s S) s' c m <-> pend x s' c m) ->
  sb_inv cfg s (next_of x s) x S -> s_chan S = s_chan (sbs x s) -> FInv (setS x s S).
Proof.
  intros [[CI SI] G] PD B E. split; [split|].
  - eapply CInv_state with (x := x); try reflexivity. eapply CInv_ext; [..|exact CI]; auto. intros s' c m. cbn beta. rewrite PD. tauto.
  - apply (SInv_setS cfg (next_of x)); auto.
  - intros p. eapply pg_ext; [..|exact (G p)]; auto.
Qed.

Lemma filter_snoc {A} f (l : list A) a : filter f (l ++ [a]) = filter f l ++ (if f a then [a] else []).
Proof. rewrite filter_app. cbn. now destruct (f a). Qed.

Lemma get_Inv x s x' : FInv x -> step cfg x (LGet s) = Some x' -> FInv x'.
Proof.
  intros F St. cbn in St. destruct (s_queue (sbs x s)) as [|[p m] q] eqn:Eq; [discriminate|].
  pose proof F as [[CI SI] G]. destruct (head_registered cfg _ x s p m q SI Eq) as [c Ec]. rewrite Ec in St.
  pose proof (proj1 SI s) as B. destruct (b_conn _ _ _ _ _ B p c Ec) as (Ep & Hc & Bo).
  assert (Pd : pend x s c m) by (split; [now rewrite Ep|left; rewrite Ep, Eq; now left]).
  destruct (cache_get (c_cache (chs x c)) m) as [h|] eqn:Gt; injection St as <-.
  - assert (Hh : (c_up (chs x c) = true -> hgood (nbuf cfg p) (pubs x p) m h /\ hkind (is_shm c) h) /\
                 visible x p h <> None /\ visible x p h = nth_error (p_sent (pubs x p)) m).
    { destruct (proj2 CI c) as [_ _ D U]. rewrite Ep in D, U. destruct (c_up (chs x c)) eqn:Up.
      - specialize (U eq_refl). destruct (u_handles _ _ _ _ _ _ _ _ _ U m h Gt) as (K1 & K2 & _). unfold nb in K1. rewrite Ep in K1. split; [auto|].
        destruct h as [v|g b]; cbn in *; [split; [discriminate|now symmetry]|].
        destruct K1 as (-> & K3 & v & K4 & K5). rewrite K5 by lia. split; [discriminate|now symmetry].
      - destruct (D eq_refl m h Gt) as (v & -> & K). split; [discriminate|]. cbn. split; [discriminate|now symmetry]. }
    destruct Hh as (Hh & V1 & V2). set (e := EGot m (visible x p h)).
    assert (Be : sb_inv cfg s (next_of x s) x (log_ev (with_queue (sbs x s) q) p e)).
    { apply (sb_dequeue cfg s _ x (sbs x s) p m q e); auto; [|discriminate]. intros v [= <-]. auto. }
    pose proof (pend_dequeue cfg _ x s p m q e c SI Eq Ec eq_refl) as PD.
    set (r := {| r_pub := p; r_id := m; r_chan := c; r_h := h; r_stale := false |}).
    apply FInv_sub; auto.
    + intros s' c' m'. unfold pend in *. specialize (PD s' c' m'). cbn [setS sbs] in PD |- *. unfold upd in *.
      destruct (Nat.eqb_spec s' s) as [->|N]; [|tauto]. cbn [with_reading log_ev with_queue s_chan s_queue s_reading] in *. split.
      * intros (K1 & [K2|(r' & K2 & K3 & K4 & K5)]).
        -- apply PD. auto.
        -- apply in_app_or in K2. destruct K2 as [K2|[<-|[]]].
           ++ apply PD. split; [exact K1|]. right. eauto.
           ++ cbn in K4, K5. subst m'. rewrite <- K4 in K1 |- *. split; [exact K1|]. left. rewrite Eq. now left.
      * intros K. destruct (Nat.eq_dec c' c) as [->|Nc]; [destruct (Nat.eq_dec m' m) as [->|Nm]|].
        -- split; [apply K|]. right. exists r. split; [apply in_or_app; right; now left|]. cbn. auto.
        -- destruct PD as [_ PD]. destruct PD as (K1 & [K2|(r' & K2 & K3)]); [split; [exact K|intros (_ & _ & ?); contradiction]|split; auto..].
           right. exists r'. split; [apply in_or_app; auto|auto].
        -- destruct PD as [_ PD]. destruct PD as (K1 & [K2|(r' & K2 & K3)]); [split; [exact K|intros (_ & ? & _); contradiction]|split; auto..].
           right. exists r'. split; [apply in_or_app; auto|auto].
    + pose proof (order_nodup cfg _ _ _ _ _ _ B Ec) as ND. rewrite Eq in ND. unfold qids in ND. cbn [filter fst] in ND. rewrite Nat.eqb_refl in ND. cbn [map snd] in ND.
      assert (Nr : forall r, In r (s_reading (sbs x s)) -> r_stale r = false -> r_pub r = p -> r_id r <> m).
      { intros r' H1 H2 H3 H4. destruct (b_read _ _ _ _ _ B r' H1 H2) as (_ & v & H5). rewrite H3, H4 in H5.
        apply (NoDup_app_disj _ _ m ND); [|now left]. change m with (ev_id (EGot m v)). now apply in_map. }
      destruct Be. constructor; cbn [with_reading log_ev with_queue s_chan s_queue s_reading s_join s_hist] in *; auto.
      * intros r' K1 K2. apply in_app_or in K1. destruct K1 as [K1|[<-|[]]]; [auto|]. cbn. split; [exact Ec|].
        exists (visible x p h). rewrite upd_same. apply in_or_app. right. now left.
      * intros r' K1 K2. apply in_app_or in K1. destruct K1 as [K1|[<-|[]]]; [auto|discriminate].
      * rewrite filter_snoc, map_app. cbn. apply NoDup_snoc; auto. intros K. apply in_map_iff in K. destruct K as (r' & K1 & K2).
        apply filter_In in K2. destruct K2 as [K2 K3]. unfold rkey in K1. injection K1 as K4 K5. apply (Nr r' K2); auto.
        unfold nonstale in K3. now destruct (r_stale r').
      * intros r' K1 K2 K3. apply in_app_or in K1. destruct K1 as [K1|[<-|[]]]; [auto|]. cbn in *. auto.
  - eapply FInv_core with (x := x); [eapply core_trans with (y := setS x s (log_ev (with_queue (sbs x s) q) p (EMiss m))); [apply core_eq; reflexivity|apply core_release]|exact F|].
    apply take_release_Inv; auto; try (intros; discriminate). split; auto.
Qed.

Lemma in_remove_nth {A} k : forall (l : list A) a, In a (remove_nth k l) -> In a l.
Proof.
  unfold remove_nth. intros l a H. apply in_app_or in H. rewrite <- (firstn_skipn k l). apply in_or_app. destruct H as [H|H]; [auto|].
  right. replace (S k) with (k + 1) in H by lia. revert l H. induction k; intros l H; destruct l; cbn in *; auto.
Qed.
Lemma remove_nth_split {A} k : forall (l : list A) a, nth_error l k = Some a -> exists l1 l2, l = l1 ++ a :: l2 /\ remove_nth k l = l1 ++ l2 /\ length l1 = k.
Proof.
  intros l a H. destruct (nth_error_split l k H) as (l1 & l2 & -> & <-). exists l1, l2. split; [reflexivity|]. split; [|reflexivity].
  unfold remove_nth. rewrite firstn_app, Nat.sub_diag, firstn_all. cbn [firstn]. rewrite app_nil_r.
  rewrite skipn_app. rewrite skipn_all2 by lia. replace (S (length l1) - length l1) with 1 by lia. reflexivity.
Qed.

Lemma release_Inv x s k x' : FInv x -> step cfg x (LRelease s k) = Some x' -> FInv x'.
Proof.
  intros F St. cbn in St. destruct (nth_error (s_reading (sbs x s)) k) as [r|] eqn:En; [|discriminate]. injection St as <-.
  destruct (remove_nth_split k _ r En) as (l1 & l2 & El & Er & _). rewrite Er.
  set (y := setS x s (with_reading (sbs x s) (l1 ++ l2))).
  pose proof F as [[CI SI] G]. pose proof (proj1 SI s) as B.
  assert (Ir : In r (s_reading (sbs x s))) by (rewrite El; apply in_or_app; right; now left).
  assert (Il : forall r', In r' (l1 ++ l2) -> In r' (s_reading (sbs x s))).
  { intros r' K. rewrite El. apply in_app_or in K. apply in_or_app. destruct K; [auto|right; now right]. }
  assert (SIy : SInv (next_of x) y).
  { apply SInv_setS; [|reflexivity|exact SI]. destruct B. constructor; cbn [with_reading s_chan s_queue s_reading s_join s_hist]; auto.
    rewrite El in b_nodup. rewrite filter_app in b_nodup. cbn [filter] in b_nodup. rewrite filter_app, map_app.
    destruct (nonstale r); rewrite map_app in b_nodup; [|exact b_nodup]. cbn [map] in b_nodup. now apply NoDup_remove_1 in b_nodup. }
  set (c := r_chan r). set (m := r_id r).
  assert (PD : forall s' c' m', pend y s' c' m' <-> pend x s' c' m' /\ ~ (r_stale r = false /\ s' = s /\ c' = c /\ m' = m)).
  { intros s' c' m'. unfold pend, y. cbn [setS sbs]. unfold upd. destruct (Nat.eqb_spec s' s) as [->|N].
    2:{ split; [intros K; split; [exact K|intros (_ & ? & _); contradiction]|tauto]. }
    cbn [with_reading s_chan s_queue s_reading]. split.
    - intros (K1 & K2). split; [split; [exact K1|destruct K2 as [K2|(r' & K2 & K3)]; [auto|right; exists r'; auto]]|].
      intros (Rs & _ & -> & ->). destruct (b_read _ _ _ _ _ B r Ir Rs) as (R1 & v & R2). destruct (b_conn _ _ _ _ _ B _ _ R1) as (R3 & _). fold c in R3.
      destruct K2 as [K2|(r' & K2 & K3 & K4 & K5)].
      + pose proof (order_nodup cfg _ _ _ _ _ _ B R1) as ND. apply (NoDup_app_disj _ _ m ND).
        * change m with (ev_id (EGot m v)). now apply in_map.
        * apply qids_in. rewrite R3 in K2. exact K2.
      + pose proof (b_nodup _ _ _ _ _ B) as ND. rewrite El, filter_app in ND. cbn [filter] in ND.
        assert (nonstale r = true) as E by (unfold nonstale; now rewrite Rs). rewrite E, map_app in ND. cbn [map] in ND.
        apply NoDup_remove_2 in ND. apply ND. rewrite <- map_app, <- filter_app. replace (rkey r) with (rkey r').
        * apply in_map, filter_In. split; [exact K2|]. unfold nonstale. now rewrite K3.
        * unfold rkey. f_equal; [|exact K5]. congruence.
    - intros ((K1 & [K2|(r' & K2 & K3 & K4 & K5)]) & N); split; auto. right. rewrite El in K2. apply in_app_or in K2. destruct K2 as [K2|[<-|K2]].
      + exists r'. split; [apply in_or_app|]; auto.
      + exfalso. apply N. repeat split; auto. destruct (b_read _ _ _ _ _ B r Ir K3) as (R1 & _). unfold c. rewrite K4 in R1. congruence.
      + exists r'. split; [apply in_or_app|]; auto. }
  eapply FInv_core with (x := x); [eapply core_trans with (y := y); [apply core_eq; reflexivity|apply core_release]|exact F|].
  set (pd := fun s c m => pend x s c m \/ none3 s c m) in *.
  assert (CIy : CInv pd (exc_of x) none2 (lag_of x) y) by (eapply CInv_state; [..|exact CI]; reflexivity).
  split; [|eapply SInv_core; [apply core_release|apply release_sbs|exact SIy]].
  eapply CInv_ext; [| | |apply (release_CInv cfg W pd (exc_of x) none2 (lag_of x) y c m s)]; auto.
  - intros s' c' m'. cbn beta. assert (E : pend (release cfg y c m s) s' c' m' <-> pend y s' c' m') by (unfold pend; rewrite release_sbs; tauto).
    rewrite E, PD. unfold pd, none3. destruct (r_stale r) eqn:Rs; [|tauto].
    split; [tauto|]. intros [[K N]|[]]. split; [auto|]. intros (-> & -> & ->).
    destruct (b_stale _ _ _ _ _ B r Ir Rs) as [R1 R2]. destruct K as [K _]. fold c in R2. congruence.
  - intros Up m' [H|[]] E. destruct (r_stale r) eqn:Rs.
    + destruct (b_stale _ _ _ _ _ B r Ir Rs) as [R1 R2]. destruct H as [K _]. fold c in R2. congruence.
    + apply (pend_uniq cfg W pd (exc_of x) none2 (lag_of x) x s c m m' CI Up); auto; left; [|exact H].
      destruct (b_read _ _ _ _ _ B r Ir Rs) as (R1 & _). destruct (b_conn _ _ _ _ _ B _ _ R1) as (R3 & _). fold c in R1, R3.
      split; [congruence|]. right. exists r. auto.
Qed.

Lemma join_Inv x s c x' : FInv x -> (forall r, In r (s_reading (sbs x s)) -> r_stale r = true -> r_pub r <> pubof c) ->
  step cfg x (LJoin s c) = Some x' -> FInv x'.
Proof.
  intros F Gd St. cbn in St. destruct (c_up (chs x c)) eqn:Up; [|discriminate]. destruct (s_chan (sbs x s) (pubof c)) eqn:Ns; [discriminate|].
  injection St as <-. set (p := pubof c) in *. set (C := chs x c) in *.
  set (C' := {| c_born := c_born C; c_up := true; c_gen := c_gen C; c_next := c_next C; c_wire := c_wire C; c_ackw := c_ackw C; c_bp := c_bp C;
                c_cache := c_cache C; c_clients := c_clients C ++ [s]; c_re := c_re C |}).
  set (S' := {| s_chan := upd (s_chan (sbs x s)) p (Some c); s_queue := s_queue (sbs x s); s_reading := s_reading (sbs x s);
                s_join := upd (s_join (sbs x s)) p (c_next C); s_hist := upd (s_hist (sbs x s)) p [] |}).
  set (z := setS (setC x c C') s S').
  destruct F as [[CI SI] G]. pose proof (proj1 SI s) as B.
  assert (Zc : chs z c = C') by apply upd_same.
  assert (Zd : forall d, d <> c -> chs z d = chs x d) by (intros d N; apply upd_other; exact N).
  assert (Zs : sbs z s = S') by apply upd_same.
  assert (Zt : forall t, t <> s -> sbs z t = sbs x t) by (intros t N; apply upd_other; exact N).
  assert (Nq : qids p (s_queue (sbs x s)) = []) by (apply (b_off _ _ _ _ _ B); exact Ns).
  assert (NR : forall r, In r (s_reading (sbs x s)) -> r_pub r <> p).
  { intros r K E. destruct (r_stale r) eqn:Rs; [exact (Gd r K Rs E)|]. destruct (b_read _ _ _ _ _ B r K Rs) as [K' _]. congruence. }
  assert (PD : forall s' c' m', pend z s' c' m' <-> pend x s' c' m').
  { intros s' c' m'. unfold pend. destruct (Nat.eq_dec s' s) as [->|N]; [|rewrite Zt by exact N; tauto]. rewrite Zs. cbn [S' s_chan s_queue s_reading]. unfold upd.
    destruct (Nat.eqb_spec (pubof c') p) as [E|_]; [|tauto]. rewrite E. split.
    - intros (_ & [K|(r & K & _ & K' & _)]); exfalso; [apply qids_in in K; rewrite Nq in K; destruct K|exact (NR r K K')].
    - intros (K & _). congruence. }
  assert (Bo : c_born C = true) by (destruct (proj2 CI c) as [_ _ _ U]; exact (u_born _ _ _ _ _ _ _ _ _ (U Up))).
  assert (Nx : forall t d, next_of z t d = next_of x t d) by (intros t d; apply (next_of_chg x z c); [exact Zd|now rewrite Zc]).
  assert (Bz : forall d, c_born (chs z d) = c_born (chs x d)).
  { intros d. destruct (Nat.eq_dec d c) as [->|N]; [now rewrite Zc|now rewrite Zd]. }
  assert (Uz : forall d, c_up (chs z d) = c_up (chs x d)).
  { intros d. destruct (Nat.eq_dec d c) as [->|N]; [rewrite Zc; symmetry; exact Up|now rewrite Zd]. }
  assert (Cz : forall d t, In t (c_clients (chs z d)) <-> In t (c_clients (chs x d)) \/ (d = c /\ t = s)).
  { intros d t. destruct (Nat.eq_dec d c) as [->|N]; [rewrite Zc; cbn; rewrite in_app_iff; cbn; intuition congruence|rewrite Zd by exact N; intuition congruence]. }
  split; [split|].
  - split; [exact (proj1 CI)|]. intros d. change (pubs z (pubof d)) with (pubs x (pubof d)). change (exc_of z d) with (exc_of x d). change (lag_of z d) with (lag_of x d).
    pose proof (proj2 CI d) as H. cbn beta in H.
    assert (H' : ch_inv (nb d) d (pubs x (pubof d)) (chs x d) (fun t m => pend z t d m \/ none3 t d m) (exc_of x d) (none2 d) (lag_of x d)).
    { eapply ch_inv_ext; [..|exact H]; auto. intros t m. cbn. rewrite PD. tauto. }
    destruct (Nat.eq_dec d c) as [->|N]; [|rewrite Zd by exact N; exact H']. rewrite Zc. destruct H' as [A1 A2 A3 U]. split; auto.
    + discriminate.
    + intros _. specialize (U Up). destruct U. constructor; auto.
  - split; [|split].
    + intros t. destruct (Nat.eq_dec t s) as [->|N].
      * rewrite Zs. destruct B. constructor; cbn [S' s_chan s_queue s_reading s_join s_hist]; unfold upd; auto.
        -- intros q d K. rewrite Bz, Cz. destruct (Nat.eqb_spec q p) as [->|_].
           ++ injection K as <-. auto.
           ++ destruct (b_conn q d K) as (K1 & K2 & K3). auto.
        -- intros q d K. rewrite Nx. destruct (Nat.eqb_spec q p) as [->|_]; [|exact (b_order q d K)].
           injection K as <-. unfold next_of. fold C. rewrite Nq, Nat.sub_diag. auto.
        -- intros q. destruct (Nat.eqb_spec q p); [discriminate|auto].
        -- intros r K1 K2. destruct (Nat.eqb_spec (r_pub r) p) as [E|_]; [exfalso; exact (NR r K1 E)|auto].
        -- intros r K1 K2. destruct (Nat.eqb_spec (r_pub r) p) as [E|_]; [exfalso; exact (NR r K1 E)|auto].
        -- intros q m v. destruct (Nat.eqb_spec q p); [intros []|apply b_vals].
        -- intros r K1 K2. rewrite Uz. exact (b_hgood r K1 K2).
        -- intros q m. destruct (Nat.eqb_spec q p); [intros []|apply b_leaky].
      * rewrite Zt by exact N. destruct (proj1 SI t). constructor; auto.
        -- intros q d K. rewrite Bz, Cz. destruct (b_conn q d K) as (K1 & K2 & K3). auto.
        -- intros q d K. rewrite Nx. exact (b_order q d K).
        -- intros r K1 K2. rewrite Uz. exact (b_hgood r K1 K2).
    + intros d t K. apply Cz in K. destruct K as [K|[-> ->]].
      * pose proof (proj1 (proj2 SI) d t K) as K'. destruct (Nat.eq_dec t s) as [->|N]; [|rewrite Zt by exact N; exact K'].
        rewrite Zs. cbn. unfold upd. destruct (Nat.eqb_spec (pubof d) p) as [E|_]; [rewrite E in K'; congruence|exact K'].
      * rewrite Zs. cbn. fold p. now rewrite upd_same.
    + intros d. destruct (Nat.eq_dec d c) as [->|N]; [|rewrite Zd by exact N; apply (proj2 (proj2 SI))].
      rewrite Zc. cbn. apply NoDup_snoc; [apply (proj2 (proj2 SI))|]. intros K. apply (proj1 (proj2 SI)) in K. fold p in K. congruence.
  - intros q. eapply pg_ext with (P := pubs x q); [| |reflexivity..|exact (G q)].
    + intros d. now rewrite Bz.
    + intros d _ _. exact (Nx 0 d).
Qed.

Lemma qids_filter_ne p q l : p <> q -> qids q (filter (fun n => negb (fst n =? p)) l) = qids q l.
Proof.
  intros N. unfold qids. induction l as [|[a b] l IH]; [reflexivity|]. cbn [filter fst]. destruct (Nat.eqb_spec a p) as [->|Na]; cbn [negb filter fst].
  - destruct (Nat.eqb_spec p q); [contradiction|]. exact IH.
  - destruct (Nat.eqb_spec a q); cbn; [now rewrite IH|exact IH].
Qed.
Lemma qids_filter_eq p l : qids p (filter (fun n => negb (fst n =? p)) l) = [].
Proof.
  unfold qids. induction l as [|[a b] l IH]; [reflexivity|]. cbn [filter fst]. destruct (Nat.eqb_spec a p) as [->|Na]; cbn [negb filter fst]; [exact IH|].
  destruct (Nat.eqb_spec a p); [contradiction|exact IH].
Qed.
Lemma filter_length_le {A} f (l : list A) : length (filter f l) <= length l.
Proof. induction l as [|a l IH]; cbn; [lia|]. destruct (f a); cbn; lia. Qed.

Definition mark (p : nat) (r : rd Obj) : rd Obj :=
  if r_pub r =? p then {| r_pub := r_pub r; r_id := r_id r; r_chan := r_chan r; r_h := r_h r; r_stale := true |} else r.
Lemma mark_spec p r : r_pub (mark p r) = r_pub r /\ r_id (mark p r) = r_id r /\ r_chan (mark p r) = r_chan r /\ r_h (mark p r) = r_h r /\
  (r_stale (mark p r) = false <-> r_stale r = false /\ r_pub r <> p).
Proof. unfold mark. destruct (Nat.eqb_spec (r_pub r) p); cbn; intuition congruence. Qed.

Lemma mark_nodup p l : NoDup (map rkey (filter nonstale l)) -> NoDup (map rkey (filter nonstale (map (mark p) l))).
Proof.
  assert (I : forall l k, In k (map rkey (filter nonstale (map (mark p) l))) -> In k (map rkey (filter nonstale l))).
  { clear l. intros l k K. apply in_map_iff in K. destruct K as (r & <- & K). apply filter_In in K. destruct K as [K1 K2]. apply in_map_iff in K1.
    destruct K1 as (r' & <- & K1). destruct (mark_spec p r') as (M1 & M2 & _ & _ & M5). unfold rkey. rewrite M1, M2.
    apply (in_map rkey). apply filter_In. split; [exact K1|]. unfold nonstale in *. apply negb_true_iff. apply M5. now apply negb_true_iff. }
  induction l as [|r l IH]; [auto|]. intros N. cbn [map filter]. cbn [filter] in N.
  destruct (mark_spec p r) as (M1 & M2 & _ & _ & M5). unfold nonstale at 1. destruct (r_stale (mark p r)) eqn:Rs; cbn [negb].
  - apply IH. destruct (nonstale r); [now inversion N|exact N].
  - destruct (proj1 M5 eq_refl) as [Rs' _]. unfold nonstale at 1 in N. rewrite Rs' in N. cbn in N. inversion N; subst. cbn [map]. constructor; [|auto].
    unfold rkey at 1. rewrite M1, M2. intros K. apply I in K. contradiction.
Qed.

Lemma leave_Inv x s p x' : FInv x -> step cfg x (LLeave s p) = Some x' -> FInv x'.
Proof.
  intros F St. cbn in St. destruct (s_chan (sbs x s) p) as [c|] eqn:Ec; [|discriminate]. injection St as <-.
  set (C := chs x c) in *.
  set (C' := {| c_born := c_born C; c_up := c_up C; c_gen := c_gen C; c_next := c_next C; c_wire := c_wire C; c_ackw := c_ackw C; c_bp := bp_free s None (c_bp C);
                c_cache := c_cache C; c_clients := filter (fun t => negb (t =? s)) (c_clients C); c_re := c_re C |}).
  fold (mark p).
  set (S' := {| s_chan := upd (s_chan (sbs x s)) p None; s_queue := filter (fun n => negb (fst n =? p)) (s_queue (sbs x s)); s_reading := map (mark p) (s_reading (sbs x s));
                s_join := s_join (sbs x s); s_hist := s_hist (sbs x s) |}).
  set (z := setS (setC x c C') s S').
  destruct F as [[CI SI] G]. pose proof (proj1 SI s) as B. destruct (b_conn _ _ _ _ _ B p c Ec) as (Ep & Ic & Bo).
  assert (Zc : chs z c = C') by apply upd_same.
  assert (Zd : forall d, d <> c -> chs z d = chs x d) by (intros d N; apply upd_other; exact N).
  assert (Zs : sbs z s = S') by apply upd_same.
  assert (Zt : forall t, t <> s -> sbs z t = sbs x t) by (intros t N; apply upd_other; exact N).
  assert (Nx : forall t d, next_of z t d = next_of x t d) by (intros t d; apply (next_of_chg x z c); [exact Zd|now rewrite Zc]).
  assert (Bz : forall d, c_born (chs z d) = c_born (chs x d)).
  { intros d. destruct (Nat.eq_dec d c) as [->|N]; [now rewrite Zc|now rewrite Zd]. }
  assert (Uz : forall d, c_up (chs z d) = c_up (chs x d)).
  { intros d. destruct (Nat.eq_dec d c) as [->|N]; [now rewrite Zc|now rewrite Zd]. }
  assert (Cz : forall d t, In t (c_clients (chs z d)) <-> In t (c_clients (chs x d)) /\ ~ (d = c /\ t = s)).
  { intros d t. destruct (Nat.eq_dec d c) as [->|N]; [|rewrite Zd by exact N; tauto].
    rewrite Zc. cbn. rewrite filter_In. destruct (Nat.eqb_spec t s); cbn; intuition congruence. }
  assert (PD : forall s' c' m', pend z s' c' m' <-> pend x s' c' m' /\ ~ (s' = s /\ c' = c)).
  { intros s' c' m'. unfold pend. destruct (Nat.eq_dec s' s) as [->|N]; [|rewrite Zt by exact N; tauto]. rewrite Zs. cbn [S' s_chan s_queue s_reading]. unfold upd.
    destruct (Nat.eqb_spec (pubof c') p) as [E|E].
    - split; [intros (K & _); discriminate|]. intros ((K & _) & N). exfalso. apply N. rewrite E in K. split; congruence.
    - split.
      + intros (K1 & K2). split; [|intros [_ ->]; congruence]. split; [exact K1|]. destruct K2 as [K2|(r & K2 & K3 & K4 & K5)].
        * left. apply filter_In in K2. tauto.
        * right. apply in_map_iff in K2. destruct K2 as (r' & <- & K2). destruct (mark_spec p r') as (M1 & M2 & _ & _ & M5).
          exists r'. rewrite <- M1, <- M2. apply M5 in K3. tauto.
      + intros ((K1 & K2) & _). split; [exact K1|]. destruct K2 as [K2|(r & K2 & K3 & K4 & K5)].
        * left. apply filter_In. split; [exact K2|]. cbn. destruct (Nat.eqb_spec (pubof c') p); [contradiction|reflexivity].
        * right. exists (mark p r). destruct (mark_spec p r) as (M1 & M2 & _ & _ & M5). rewrite M1, M2, M5. split; [now apply in_map|]. repeat split; auto. congruence. }
  split; [split|].
  - split; [exact (proj1 CI)|]. intros d. change (pubs z (pubof d)) with (pubs x (pubof d)). change (exc_of z d) with (exc_of x d). change (lag_of z d) with (lag_of x d).
    pose proof (proj2 CI d) as H. cbn beta in H. destruct (Nat.eq_dec d c) as [->|N].
    + rewrite Zc. destruct H as [A1 A2 A3 U]. split; auto.
      * intros K. cbn. apply bp_free_inv. auto.
      * intros Up. specialize (U Up). destruct U. constructor; auto.
        -- intros t b. cbn. rewrite held_free. unfold C. rewrite u_lease. split.
           ++ intros (K & m & [K1|[]] & K2). exists m. split; [left; apply PD; split; [exact K1|tauto]|exact K2].
           ++ intros (m & [K1|[]] & K2). apply PD in K1. destruct K1 as [K1 K3]. split; [intros ->; apply K3; auto|]. exists m. auto.
        -- intros t m [K|[]]. apply PD in K. apply (u_pend t m). left. tauto.
    + rewrite Zd by exact N. eapply ch_inv_ext; [..|exact H]; auto. intros t m. cbn. rewrite PD. tauto.
  - split; [|split].
    + intros t. destruct (Nat.eq_dec t s) as [->|N].
      * rewrite Zs. destruct B. constructor; cbn [S' s_chan s_queue s_reading s_join s_hist]; unfold upd; auto.
        -- intros q d. destruct (Nat.eqb_spec q p) as [->|N]; [discriminate|]. intros K. rewrite Bz, Cz. destruct (b_conn q d K) as (K1 & K2 & K3). repeat split; auto.
           intros [-> _]. congruence.
        -- intros q d. destruct (Nat.eqb_spec q p) as [->|N]; [discriminate|]. intros K. rewrite Nx, qids_filter_ne by congruence. exact (b_order q d K).
        -- intros q. destruct (Nat.eqb_spec q p) as [->|N]; [intros _; apply qids_filter_eq|]. intros K. rewrite qids_filter_ne by congruence. auto.
        -- intros r K1 K2. apply in_map_iff in K1. destruct K1 as (r' & <- & K1). destruct (mark_spec p r') as (M1 & M2 & M3 & _ & M5). rewrite M1, M2, M3.
           apply M5 in K2. destruct K2 as [K2 K3]. destruct (Nat.eqb_spec (r_pub r') p); [contradiction|]. auto.
        -- intros r K1 K2. apply in_map_iff in K1. destruct K1 as (r' & <- & K1). destruct (mark_spec p r') as (M1 & M2 & M3 & _ & M5). rewrite M1, M3.
           destruct (Nat.eqb_spec (r_pub r') p) as [E|N].
           ++ split; [reflexivity|]. destruct (r_stale r') eqn:Rs; [apply (b_stale r' K1 Rs)|]. destruct (b_read r' K1 Rs) as [K3 _]. symmetry. apply (b_conn _ _ K3).
           ++ apply b_stale; auto. destruct (r_stale r') eqn:Rs; [reflexivity|]. assert (r_stale (mark p r') = false) by (apply M5; auto). congruence.
        -- apply mark_nodup. exact b_nodup.
        -- intros r K1 K2. apply in_map_iff in K1. destruct K1 as (r' & <- & K1). destruct (mark_spec p r') as (M1 & M2 & M3 & M4 & M5). rewrite M1, M2, M3, M4, Uz.
           apply M5 in K2. apply (b_hgood r' K1). tauto.
        -- intros k K1 K2. specialize (b_len k K1 K2). pose proof (filter_length_le (fun n => negb (fst n =? p)) (s_queue (sbs x s))). lia.
      * rewrite Zt by exact N. destruct (proj1 SI t). constructor; auto.
        -- intros q d K. rewrite Bz, Cz. destruct (b_conn q d K) as (K1 & K2 & K3). repeat split; auto. intros [_ ?]. contradiction.
        -- intros q d K. rewrite Nx. exact (b_order q d K).
        -- intros r K1 K2. rewrite Uz. exact (b_hgood r K1 K2).
    + intros d t K. apply Cz in K. destruct K as [K K'].
      pose proof (proj1 (proj2 SI) d t K) as K2. destruct (Nat.eq_dec t s) as [->|N]; [|rewrite Zt by exact N; exact K2].
      rewrite Zs. cbn. unfold upd. destruct (Nat.eqb_spec (pubof d) p) as [E|_]; [|exact K2]. exfalso. apply K'. rewrite E in K2. split; congruence.
    + intros d. destruct (Nat.eq_dec d c) as [->|N]; [|rewrite Zd by exact N; apply (proj2 (proj2 SI))].
      rewrite Zc. cbn. apply NoDup_filter. apply (proj2 (proj2 SI)).
  - intros q. eapply pg_ext with (P := pubs x q); [| |reflexivity..|exact (G q)].
    + intros d. now rewrite Bz.
    + intros d _ _. exact (Nx 0 d).
Qed.

Lemma mid_same x y p o todo : (forall q, pubs x q = pubs y q) -> (forall c, chs x c = chs y c) -> (forall s, sbs x s = sbs y s) ->
  mid cfg y p o todo -> mid cfg x p o todo.
Proof.
  intros E1 E2 E3 [].
  assert (Xc : forall c m, exc_of x c m <-> exc_of y c m) by (intros; unfold exc_of; rewrite E1; tauto).
  assert (Lg : forall c, lag_of x c = lag_of y c) by (intros; unfold lag_of; now rewrite E1).
  constructor; rewrite ?E1; auto.
  - destruct m_inv as [CI SI]. split.
    + eapply CInv_chg with (x := y) (c := 0); auto; [exact CI|..].
      * intros s d m _. unfold pend. rewrite E3. tauto.
      * intros d _. rewrite Lg. refine (conj _ (conj _ eq_refl)); [|auto]. intros m [A B]. split; [exact A|now apply Xc].
      * rewrite E2. pose proof (proj2 CI 0) as H. cbn beta in H. rewrite Lg. eapply ch_inv_ext; [..|exact H]; auto.
        -- intros s m. cbn. unfold pend. rewrite E3. tauto.
        -- intros m [A B]. split; [exact A|now apply Xc].
    + eapply SInv_chg with (x := y) (c := 0) (next := next_of y); [exact SI|auto|auto|auto|now rewrite E2..|]. intros. unfold next_of. now rewrite E2.
  - intros q N. rewrite E1. eapply pg_ext with (P := pubs y q); [| |reflexivity..|exact (m_pg q N)]; intros; rewrite E2 in *; auto.
  - eapply pchans_ext; [| |exact m_pc]; auto. intros c. now rewrite E2.
  - intros c K L. rewrite E2. auto.
Qed.

Theorem step_FInv x l x' : FInv x -> join_ok cfg x l -> step cfg x l = Some x' -> FInv x'.
Proof.
  intros F J St. destruct l.
  - cbn in St. destruct (p_phase (pubs x p)) eqn:Ph; try discriminate. injection St as <-. destruct (p_run (pubs x p)).
    + apply try_send_Inv; auto. now rewrite Ph.
    + apply phase_Inv; auto. now rewrite Ph.
  - cbn in St. destruct (p_phase (pubs x p)) as [|o [|]|o|o|o c t] eqn:Ph; try discriminate.
    + injection St as <-. apply try_send_Inv; auto. now rewrite Ph.
    + destruct (bp_available _ _) as [[|]|] eqn:Av; try discriminate. injection St as <-. apply start_Inv; auto. now rewrite Ph.
  - cbn in St. destruct (p_phase (pubs x p)) eqn:Ph; try discriminate. injection St as <-. now apply grown_Inv.
  - cbn in St. destruct (p_phase (pubs x p)) eqn:Ph; try discriminate. injection St as <-. apply next_channel_ok; [exact W|]. apply drained_mid with (c := cur); auto.
  - cbn in St. destruct (p_phase (pubs x p)) eqn:Ph; try discriminate. destruct (c_up (chs x cur)) eqn:Up; [discriminate|]. injection St as <-.
    apply next_channel_ok; [exact W|]. eapply mid_same; [| | |apply (drained_mid cfg W x p o cur todo (p_bp (pubs x p)) F Ph); auto]; auto.
    intros q. cbn. unfold upd. destruct (Nat.eqb_spec q p) as [->|]; [apply with_bp_id|reflexivity].
  - cbn in St. injection St as <-. apply run_Inv; auto.
  - cbn in St. injection St as <-. apply run_Inv; auto. cbn. destruct (p_phase (pubs x p)); auto.
  - exact (chan_recv_Inv cfg W x c x' F St).
  - exact (reattach_Inv cfg W x c x' F St).
  - exact (ack_Inv cfg W x c x' F St).
  - exact (get_Inv x s x' F St).
  - exact (release_Inv x s k x' F St).
  - exact (connect_Inv cfg W x c x' F St).
  - cbn in St. destruct (c_up (chs x c)) eqn:Up; [|discriminate]. injection St as <-. now apply chan_down_Inv.
  - exact (pub_down_Inv cfg x c x' F St).
  - exact (join_Inv x s c x' F J St).
  - exact (leave_Inv x s p x' F St).
Qed.

Lemma init_FInv : FInv (init cfg : st).
Proof.
  split; [split|].
  - split; [intros p; apply bp_new_inv|]. intros c. split; cbn; try discriminate. intros _ m h K. unfold cached in K. cbn in K.
    unfold cache_get, slot in K. cbn in K. destruct m; discriminate.
  - split; [|split]; cbn; auto.
    + intros s. constructor; cbn.
      * discriminate.
      * discriminate.
      * reflexivity.
      * intros r [].
      * intros r [].
      * constructor.
      * intros p m v [].
      * intros r [].
      * intros. lia.
      * intros p m [].
    + intros c s [].
    + intros c. constructor.
  - intros p. constructor; cbn; auto; try tauto. constructor; cbn; [intros ? []|constructor|intros ? ? []].
Qed.

Theorem reach_FInv x : reach cfg x -> FInv x.
Proof. induction 1; [apply init_FInv|eapply step_FInv; eauto]. Qed.
End Steps.
