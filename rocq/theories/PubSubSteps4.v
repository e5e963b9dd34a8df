(** The invariant is preserved by every transition. *)
From Coq Require Import List ZArith Arith Bool Lia.
From Verif Require Import BackpressureModel BackpressureProofs CacheModel CacheProofs TransportModel PubSubModel PubSubSpec PubSubInv PubSubSub PubSubSteps PubSubSteps2 PubSubSteps3.
Import ListNotations.

Section Steps.
Context {Obj : Type}.
Variable cfg : config.
Hypothesis W : wf cfg.
Notation st := (st Obj).
Notation pubst := (pubst Obj).
Notation chst := (chst Obj).
Notation sbst := (sbst Obj).
Notation CInv := (CInv cfg).
Notation nb := (nb cfg).
Notation pubof := (pubof cfg).
Notation ch_inv := (ch_inv cfg).
Notation up_inv := (up_inv cfg).
Notation SInv := (SInv cfg).
Notation Inv := (Inv cfg).
Notation pend := (pend cfg).
Notation is_local := (is_local cfg).
Notation is_shm := (is_shm cfg).
Notation pchans := (pchans cfg).
Notation todo_ok := (todo_ok cfg).
Notation FInv := (FInv cfg).
Notation pg := (pg cfg).
Notation exc_of := (exc_of cfg).
Notation lag_of := (lag_of cfg).
Implicit Types x y z : st.
Implicit Types P : pubst.
Implicit Types C : chst.
Implicit Types o : Obj.



Lemma next_of_chg x y c : (forall d, d <> c -> chs y d = chs x d) -> c_next (chs y c) = c_next (chs x c) -> forall s d, next_of y s d = next_of x s d.
Proof. intros E1 E2 s d. unfold next_of. destruct (Nat.eq_dec d c) as [->|N]; [exact E2|now rewrite E1]. Qed.

(** A change of one channel record that keeps what the others look at. *)
Lemma chan_Inv x c C' :
  FInv x -> c_clients C' = c_clients (chs x c) -> c_born C' = c_born (chs x c) -> (c_up C' = true -> c_up (chs x c) = true) ->
  c_next C' = c_next (chs x c) ->
  ch_inv (nb c) c (pubs x (pubof c)) C' (fun s m => pend x s c m \/ none3 s c m) (exc_of x c) (none2 c) (lag_of x c) ->
  FInv (setC x c C').
Proof.
  intros [[CI SI] G] E1 E2 E3 E4 H. set (y := setC x c C').
  assert (Yc : chs y c = C') by apply upd_same.
  assert (Yd : forall d, d <> c -> chs y d = chs x d) by (intros d N; apply upd_other; exact N).
  split; [split|].
  - eapply CInv_chg with (x := x) (c := c); [exact CI|reflexivity|exact Yd|reflexivity| |rewrite Yc; exact H]. auto.
  - eapply SInv_chg with (x := x) (c := c); [exact SI|reflexivity|exact Yd|reflexivity|..]; rewrite ?Yc; auto; [congruence|].
    intros s d _. apply next_of_chg with (c := c); auto. now rewrite Yc.
  - intros p. apply (pg_chg cfg x y c); auto; rewrite Yc; congruence.
Qed.

Lemma chan_down_Inv x c : FInv x -> c_up (chs x c) = true -> FInv (chan_down x c).
Proof.
  intros F Up. unfold chan_down. cbn zeta. apply chan_Inv; auto.
  destruct F as [[CI _] _]. destruct (proj2 CI c) as [A B D U]. specialize (U Up). pose proof (u_born _ _ _ _ _ _ _ _ _ U) as Bo.
  pose proof (nb_pos cfg W c) as Hn. split; cbn; auto.
  - intros _. apply cgood_clear; auto.
  - intros _ m h K. unfold cached in K. cbn in K. rewrite (get_clear (nb c)) in K by auto. discriminate.
  - discriminate.
Qed.

Lemma good_later n P m g g' : g <= g' -> good n P m g -> good n P m g'.
Proof. intros L (o & A & B). exists o. split; [exact A|]. intros i Hi. apply B. lia. Qed.

Lemma take_shm_Inv x c C1 m g w :
  FInv x -> c_up (chs x c) = true -> c_up C1 = true -> c_born C1 = true ->
  c_next C1 = c_next (chs x c) -> c_clients C1 = c_clients (chs x c) -> c_re C1 = None -> c_wire C1 = FShm m g :: w -> c_gen C1 = g ->
  ch_inv (nb c) c (pubs x (pubof c)) C1 (fun s m => pend x s c m \/ none3 s c m) (exc_of x c) (none2 c) (lag_of x c) ->
  FInv (take_shm cfg (setC x c (with_wire C1 w)) c m g).
Proof.
  intros F Up Up1 Bo1 En Ecl Re Wi Eg H. pose proof H as [_ _ _ U]. specialize (U Up1).
  pose proof (u_frames _ _ _ _ _ _ _ _ _ U) as Fr. rewrite Re, Wi in Fr. cbn in Fr. destruct Fr as (F1 & F2 & (o & F3 & F4) & F5).
  unfold take_shm. cbn zeta. change (pubs (setC x c (with_wire C1 w)) (pubof c)) with (pubs x (pubof c)).
  assert (E : entry_of_slot (pubs x (pubof c)) g (slot_of cfg (pubof c) m) = Some {| e_obj := View g (m mod nb c); e_id := m; e_mem := Some 0 |}).
  { unfold entry_of_slot. rewrite (slot_nb cfg). rewrite F4 by lia. reflexivity. }
  rewrite E. cbn [e_id]. rewrite Nat.eqb_refl.
  eapply receive_Inv with (f := FShm m g); eauto; cbn.
  - repeat split; [lia|]. exists o. auto.
  - intros g' b [= <- _]. lia.
  - now rewrite Eg.
Qed.

Lemma chan_recv_Inv x c x' : FInv x -> step cfg x (LChanRecv c) = Some x' -> FInv x'.
Proof.
  intros F St. cbn in St. destruct (c_up (chs x c)) eqn:Up; [|discriminate].
  destruct (c_re (chs x c)) eqn:Re; [discriminate|]. destruct (c_wire (chs x c)) as [|f w] eqn:Wi; [discriminate|].
  pose proof (proj2 (proj1 (proj1 F)) c) as H. cbn beta in H. pose proof H as [A B _ U]. specialize (U Up).
  pose proof (u_born _ _ _ _ _ _ _ _ _ U) as Bo. pose proof (u_frames _ _ _ _ _ _ _ _ _ U) as Fr. rewrite Re, Wi in Fr.
  pose proof (nb_pos cfg W c) as Hn. specialize (A Bo). specialize (B Bo).
  destruct f as [m g|m o].
  - cbn in Fr. destruct Fr as (F1 & F2 & F3 & F4). destruct (Nat.eqb_spec (c_gen (chs x c)) g) as [Eg|Ng]; injection St as <-.
    + apply take_shm_Inv; auto.
    + (* another segment: forget the views, remember the ids *)
      set (C' := {| c_born := c_born (chs x c); c_up := true; c_gen := c_gen (chs x c); c_next := c_next (chs x c); c_wire := w;
                    c_ackw := c_ackw (chs x c); c_bp := c_bp (chs x c); c_cache := cache_clear (c_cache (chs x c)); c_clients := c_clients (chs x c);
                    c_re := Some (cache_keys (c_cache (chs x c)), m, g) |}).
      assert (HasC : forall i, has C' i <-> has (chs x c) i).
      { intros i. unfold has, cached, rekeys. cbn. rewrite Re. rewrite (keys_get (nb c)) by exact B. split.
        - intros [[h K]|K]; [rewrite (get_clear (nb c)) in K by auto; discriminate|auto].
        - intros [K|[]]. auto. }
      assert (HC : ch_inv (nb c) c (pubs x (pubof c)) C' (fun s m => pend x s c m \/ none3 s c m) (exc_of x c) (none2 c) (lag_of x c)).
      { split; cbn.
        - auto.
        - intros _. now apply cgood_clear.
        - discriminate.
        - intros _.
          assert (Ids : rem C' ++ map fid (c_wire C') = rem (chs x c) ++ map fid (c_wire (chs x c))) by (unfold rem; cbn; rewrite Re, Wi; reflexivity).
          assert (Ow : forall i, owed C' i -> owed (chs x c) i).
          { intros i [K|[K|[K|K]]].
            - left. rewrite Wi. right. exact K.
            - left. rewrite Wi. left. cbn in K. destruct K as [K|[]]. exact K.
            - right; right; left. now apply HasC.
            - right; right; right. exact K. }
          destruct U. constructor; auto.
          + intros s i K. destruct (u_pend s i K) as (K1 & K2 & [K3|K3]); [|destruct K3]. repeat split; auto. left. now apply HasC.
          + intros i K. apply HasC in K. now apply u_has.
          + rewrite Ids. exact u_ids.
          + rewrite Ids. exact u_sent.
          + intros i h K. unfold cached in K. cbn in K. rewrite (get_clear (nb c)) in K by auto. discriminate.
          + cbn. refine (conj F1 (conj F2 (conj F3 (conj _ F4)))). intros k K. apply (keys_get (nb c)) in K; [|exact B]. destruct K as [h K].
            destruct (u_handles k h K) as (K1 & K2 & K3). destruct h as [v|g' b]; cbn in K2; [congruence|].
            destruct K1 as (_ & _ & K1). eapply good_later; [|exact K1]. specialize (K3 g' b eq_refl). lia.
          + right. intros i. cbn. now apply (get_clear (nb c)).
          + intros L. destruct (u_loc L) as (K & _). congruence. }
      apply (chan_Inv x c C'); auto.
  - cbn in Fr. destruct Fr as (F1 & F2 & F3). injection St as <-.
    eapply receive_Inv with (f := FTcp m o); eauto; cbn; auto. discriminate.
Qed.

Lemma reput_spec n P p g : n = nbuf cfg p -> 0 < n -> forall ids k0, cgood n k0 -> (forall i, In i ids -> good n P i g) -> g <= p_gen P ->
  exists k, reput cfg P p g ids k0 = Some k /\ cgood n k /\
    (forall i h, cache_get k i = Some h -> (In i ids /\ h = View g (i mod n)) \/ cache_get k0 i = Some h) /\
    (forall i, (forall j, In j ids -> j mod n = i mod n -> j = i) -> (In i ids \/ cache_get k0 i = Some (View g (i mod n))) ->
       cache_get k i = Some (View g (i mod n))).
Proof.
  intros En Hn. induction ids as [|j ids IH]; intros k0 G Hg Lg; cbn [reput].
  - exists k0. split; [reflexivity|]. split; [exact G|]. split; [auto|]. intros i _ [[]|H]. exact H.
  - assert (E : entry_of_slot P g (slot_of cfg p j) = Some {| e_obj := View g (j mod n); e_id := j; e_mem := Some 0 |}).
    { destruct (Hg j (or_introl eq_refl)) as (o & _ & B). unfold entry_of_slot, slot_of. rewrite <- En, B by lia. reflexivity. }
    rewrite E. set (e := {| e_obj := View g (j mod n); e_id := j; e_mem := Some 0 |}).
    destruct (IH (cache_put k0 e)) as (k & E1 & G1 & S1 & S2).
    + now apply cgood_put.
    + intros i Hi. apply Hg. now right.
    + exact Lg.
    + exists k. split; [exact E1|]. split; [exact G1|]. split.
      * intros i h K. destruct (S1 i h K) as [[K1 K2]|K1]; [left; split; [now right|exact K2]|].
        rewrite (get_put n) in K1 by auto. cbn [e_id e_obj e] in K1. destruct (Nat.eqb_spec j i) as [->|N].
        -- injection K1 as <-. left. split; [now left|reflexivity].
        -- destruct (_ =? _); [discriminate|auto].
      * intros i U H. apply S2; [intros j' Hj'; apply U; now right|].
        destruct H as [[->|H]|H]; [right|now left|].
        -- rewrite (get_put n) by auto. cbn. now rewrite Nat.eqb_refl.
        -- right. rewrite (get_put n) by auto. cbn [e_id e_obj e]. destruct (Nat.eqb_spec j i) as [->|N]; [reflexivity|].
           destruct (Nat.eqb_spec (j mod n) (i mod n)) as [E2|]; [|exact H]. exfalso. apply N. apply U; [now left|exact E2].
Qed.

Lemma reattach_Inv x c x' : FInv x -> step cfg x (LReattach c) = Some x' -> FInv x'.
Proof.
  intros F St. cbn in St. destruct (c_up (chs x c)) eqn:Up; [|discriminate].
  destruct (c_re (chs x c)) as [[[keys m] g]|] eqn:Re; [|discriminate].
  pose proof (proj2 (proj1 (proj1 F)) c) as H. cbn beta in H. pose proof H as [A B _ U]. specialize (U Up).
  pose proof (u_born _ _ _ _ _ _ _ _ _ U) as Bo. pose proof (u_frames _ _ _ _ _ _ _ _ _ U) as Fr. rewrite Re in Fr.
  destruct Fr as (F1 & F2 & F3 & F4 & F5). pose proof (nb_pos cfg W c) as Hn. specialize (A Bo). specialize (B Bo).
  destruct (reput_spec (nb c) (pubs x (pubof c)) (pubof c) g eq_refl Hn keys (c_cache (chs x c)) B F4) as (k & E & G & S1 & S2); [lia|].
  rewrite E in St. injection St as <-.
  set (C1 := {| c_born := c_born (chs x c); c_up := true; c_gen := g; c_next := c_next (chs x c); c_wire := FShm m g :: c_wire (chs x c);
                c_ackw := c_ackw (chs x c); c_bp := c_bp (chs x c); c_cache := k; c_clients := c_clients (chs x c); c_re := None |}).
  refine (take_shm_Inv x c C1 m g (c_wire (chs x c)) F Up eq_refl Bo eq_refl eq_refl eq_refl eq_refl eq_refl _).
  assert (Em : forall i, cache_get (c_cache (chs x c)) i = None) by (destruct (u_re _ _ _ _ _ _ _ _ _ U); [congruence|auto]).
  assert (Uq : forall i j, In i keys -> In j keys -> j mod nb c = i mod nb c -> j = i).
  { intros i j Ki Kj E2. eapply (owed_slot cfg); [exact Hn|exact U|..|exact E2]; right; right; left; right; unfold rekeys; now rewrite Re. }
  assert (Gk : forall i h, cache_get k i = Some h <-> In i keys /\ h = View g (i mod nb c)).
  { intros i h. split.
    - intros K. destruct (S1 i h K) as [K1|K1]; [exact K1|]. rewrite Em in K1. discriminate.
    - intros [K ->]. apply S2; auto. }
  assert (HasC : forall i, has C1 i <-> has (chs x c) i).
  { intros i. unfold has, cached, rekeys. cbn. rewrite Re. split.
    - intros [[h K]|[]]. apply Gk in K. tauto.
    - intros [[h K]|K]; [rewrite Em in K; discriminate|]. left. exists (View g (i mod nb c)). apply Gk. auto. }
  split; cbn; auto; [discriminate|]. intros _.
  assert (Ids : rem C1 ++ map fid (c_wire C1) = rem (chs x c) ++ map fid (c_wire (chs x c))) by (unfold rem; cbn; rewrite Re; reflexivity).
  assert (Ow : forall i, owed C1 i -> owed (chs x c) i).
  { intros i [K|[K|[K|K]]].
    - cbn in K. destruct K as [K|K]; [right; left; unfold rem; rewrite Re; now left|left; exact K].
    - destruct K.
    - right; right; left. now apply HasC.
    - right; right; right. exact K. }
  destruct U. constructor; auto.
  - intros s i K. destruct (u_pend s i K) as (K1 & K2 & [K3|K3]); [|destruct K3]. repeat split; auto. left. now apply HasC.
  - intros i K. apply HasC in K. now apply u_has.
  - rewrite Ids. exact u_ids.
  - rewrite Ids. exact u_sent.
  - intros i h K. apply Gk in K. destruct K as [K ->]. cbn. repeat split; auto; [lia|]. intros g' b [= <- _]. lia.
  - cbn. repeat split; auto. lia.
  - intros L. destruct (u_loc L) as (_ & K & _). congruence.
  - cbn. lia.
Qed.

Lemma ack_Inv x c x' : FInv x -> step cfg x (LAck c) = Some x' -> FInv x'.
Proof.
  intros F St. cbn in St. destruct (c_ackw (chs x c)) as [|m a] eqn:Ea; [discriminate|]. destruct (existsb _ _); [|discriminate].
  injection St as <-. destruct F as [[CI SI] G].
  set (y := setC x c (with_ackw (chs x c) a)). set (p := pubof c). change (pubs x p) with (pubs y p).
  set (P := pubs x p) in *. change (pubs y p) with P. set (P' := with_bp P (bp_free c (Some (slot_of cfg p m)) (p_bp P))). set (z := setP y p P').
  assert (Yc : chs y c = with_ackw (chs x c) a) by apply upd_same.
  assert (Yd : forall d, d <> c -> chs y d = chs x d) by (intros d N; apply upd_other; exact N).
  assert (Zp : pubs z p = P') by apply upd_same.
  assert (Zq : forall q, q <> p -> pubs z q = pubs x q) by (intros q N; unfold z; cbn; rewrite upd_other by exact N; reflexivity).
  assert (Xc : forall d i, exc_of x d i <-> exc_of z d i).
  { intros d i. unfold exc_of. destruct (Nat.eq_dec (pubof d) p) as [->|N]; [rewrite Zp; fold P; cbn; tauto|rewrite Zq by exact N; tauto]. }
  assert (Lg : forall d, lag_of x d = lag_of z d).
  { intros d. unfold lag_of. destruct (Nat.eq_dec (pubof d) p) as [->|N]; [rewrite Zp; reflexivity|rewrite Zq by exact N; reflexivity]. }
  assert (Nx : forall s d, next_of z s d = next_of x s d) by (intros s d; apply (next_of_chg x z c); [exact Yd|change (chs z c) with (chs y c); now rewrite Yc]).
  split; [split|].
  - split.
    + intros q. destruct (Nat.eq_dec q p) as [->|N]; [rewrite Zp; cbn; apply bp_free_inv; exact (proj1 CI p)|rewrite Zq by exact N; exact (proj1 CI q)].
    + intros d. change (chs z d) with (chs y d). rewrite <- Lg. pose proof (proj2 CI d) as H. cbn beta in H.
      destruct (Nat.eq_dec d c) as [->|N].
      * rewrite Yc. fold p in H |- *. rewrite Zp. fold P in H. destruct H as [A B D U]. split; auto.
        intros Up. specialize (U Up).
        assert (Om : owed (chs x c) m) by (right; right; right; rewrite Ea; now left).
        pose proof (fun i K => owed_slot cfg _ _ _ _ _ _ _ _ m i (nb_pos cfg W c) U Om K) as Sl.
        assert (NoM : forall i, owed (with_ackw (chs x c) a) i -> owed (chs x c) i /\ i <> m).
        { pose proof (u_ackw _ _ _ _ _ _ _ _ _ U) as [A1 A2]. rewrite Ea in A1. inversion A1; subst. pose proof (A2 m) as A3. rewrite Ea in A3. specialize (A3 (or_introl eq_refl)).
          pose proof (u_ids _ _ _ _ _ _ _ _ _ U) as I.
          assert (Q : forall i, In i (rem (chs x c) ++ map fid (c_wire (chs x c))) -> i <> m).
          { intros i K. rewrite I in K. apply in_seq in K. lia. }
          intros i [K|[K|[K|K]]].
          - split; [left; exact K|]. apply Q, in_or_app. auto.
          - split; [right; left; exact K|]. apply Q, in_or_app. auto.
          - split; [right; right; left; exact K|]. intros ->. apply (u_has _ _ _ _ _ _ _ _ _ U) in K. destruct K as [_ K]. apply K. rewrite Ea. now left.
          - cbn in K. split; [right; right; right; rewrite Ea; now right|]. intros ->. contradiction. }
        destruct U. constructor; cbn; auto.
        -- intros i K. destruct (u_has i K) as [K1 K2]. split; auto. intros K3. apply K2. rewrite Ea. now right.
        -- destruct u_ackw as [K1 K2]. rewrite Ea in *. inversion K1; subst. split; auto. intros i K. apply K2. now right.
        -- intros i K. destruct (NoM i K) as [K1 K2]. destruct (u_owed i K1) as [K3 [K4|K4]]; split; auto; [left|right; now apply Xc].
           rewrite held_free. split; [|exact K4]. intros [_ E]. apply K2. apply Sl; auto.
        -- destruct (c_re (chs x c)) as [[[keys j] g]|].
           ++ destruct u_frames as (Q1 & Q2 & Q3 & Q4 & Q5). refine (conj Q1 (conj Q2 (conj _ (conj _ _)))).
              ** eapply good_keep; [..|exact Q3]; reflexivity.
              ** intros k K. eapply good_keep; [..|exact (Q4 k K)]; reflexivity.
              ** eapply frames_keep; [..|exact Q5]; reflexivity.
           ++ eapply frames_keep; [..|exact u_frames]; reflexivity.
        -- intros L. destruct (u_loc L) as (_ & _ & K). congruence.
      * rewrite (Yd d N). destruct (Nat.eq_dec (pubof d) p) as [E|E].
        -- rewrite E in *. rewrite Zp. fold P in H. eapply ch_inv_pub with (P := P); try reflexivity; auto.
           ++ intros b K. cbn. rewrite held_free. split; [intros [? _]; contradiction|exact K].
           ++ eapply ch_inv_ext; [..|exact H]; auto; [tauto|]. intros i. apply Xc.
        -- rewrite Zq by exact E. eapply ch_inv_ext; [..|exact H]; auto; [tauto|]. intros i. apply Xc.
  - eapply SInv_next; [intros; symmetry; apply Nx|]. apply SInv_setP_keep; try reflexivity. apply SInv_setC; auto.
  - intros q.
    assert (Bz : forall d, c_born (chs x d) = true -> c_born (chs z d) = true).
    { intros d. change (chs z d) with (chs y d). destruct (Nat.eq_dec d c) as [->|N]; [now rewrite Yc|now rewrite Yd]. }
    destruct (Nat.eq_dec q p) as [->|N].
    + rewrite Zp. eapply pg_ext with (P := P); [exact Bz| |reflexivity..|exact (G p)]. intros d _ _. exact (Nx 0 d).
    + rewrite Zq by exact N. eapply pg_ext with (P := pubs x q); [exact Bz| |reflexivity..|exact (G q)]. intros d _ _. exact (Nx 0 d).
Qed.

Lemma pub_down_Inv x c x' : FInv x -> step cfg x (LPubDown c) = Some x' -> FInv x'.
Proof.
  intros F St. cbn in St. destruct (c_up (chs x c)) eqn:Up; [discriminate|]. set (p := pubof c) in *. set (P := pubs x p) in *.
  assert (Hph : x' = setP x p {| p_sent := p_sent P; p_nxt := p_nxt P; p_run := p_run P; p_phase := p_phase P; p_bp := bp_free c None (p_bp P);
                  p_gen := p_gen P; p_mem := p_mem P; p_chans := filter (fun d => negb (d =? c)) (p_chans P) |} /\
                (forall o d l, p_phase P <> Draining o d l)).
  { destruct (p_phase P) eqn:Ph; try discriminate; (destruct (existsb (Nat.eqb c) (p_chans P)); [|discriminate]); injection St as <-; (split; [reflexivity|discriminate]). }
  destruct Hph as [-> NoD]. clear St. destruct F as [[CI SI] G].
  set (P' := {| p_sent := p_sent P; p_nxt := p_nxt P; p_run := p_run P; p_phase := p_phase P; p_bp := bp_free c None (p_bp P);
                  p_gen := p_gen P; p_mem := p_mem P; p_chans := filter (fun d => negb (d =? c)) (p_chans P) |}).
  set (z := setP x p P').
  assert (Zp : pubs z p = P') by apply upd_same.
  assert (Xc : forall d i, exc_of x d i <-> exc_of z d i).
  { intros d i. destruct (Nat.eq_dec (pubof d) p) as [E|N]; [unfold exc_of; rewrite E, Zp; fold P; cbn; tauto|symmetry; now apply exc_of_setP]. }
  assert (Lg : forall d, lag_of x d = lag_of z d).
  { intros d. destruct (Nat.eq_dec (pubof d) p) as [E|N]; [unfold lag_of; rewrite E, Zp; reflexivity|symmetry; now apply lag_of_setP]. }
  assert (InF : forall d, In d (p_chans P') <-> In d (p_chans P) /\ d <> c).
  { intros d. cbn. rewrite filter_In. destruct (Nat.eqb_spec d c); cbn; intuition congruence. }
  split; [split|].
  - eapply CInv_setP; [exact CI|cbn; apply bp_free_inv; exact (proj1 CI p)|..].
    + intros d Ed. rewrite <- Lg. pose proof (proj2 CI d) as H. cbn beta in H. rewrite Ed in H. fold P in H.
      destruct (Nat.eq_dec d c) as [->|N].
      * destruct H as [A B D U]. split; auto. intros K. congruence.
      * eapply ch_inv_pub with (P := P); try reflexivity; auto.
        -- intros K. apply InF. auto.
        -- intros b K. cbn. rewrite held_free. auto.
        -- eapply ch_inv_ext; [..|exact H]; auto; [tauto|]. intros i. apply Xc.
    + intros d N. split; [intros i; apply Xc|apply Lg].
  - eapply SInv_next; [|apply SInv_setP_keep; [..|exact SI]; reflexivity]. reflexivity.
  - intros q. destruct (Nat.eq_dec q p) as [->|N]; [|now apply pg_setP_other; auto].
    rewrite Zp. destruct (G p) as [G1 G2 G3 G4 G5]. fold P in G1, G2, G3, G4, G5. constructor; auto.
    + destruct G3. constructor.
      * intros d K. apply InF in K. apply g_chans. tauto.
      * apply NoDup_filter. exact g_nodup.
      * intros a b Ka Kb. apply InF in Ka, Kb. apply g_local; tauto.
    + intros d K. apply InF in K. apply G4. tauto.
    + cbn. destruct (p_phase P) eqn:Ph; auto. exfalso. eapply NoD; reflexivity.
Qed.

Lemma held_new n u i : ~ held_in (bp_new n) u i.
Proof.
  intros (b & E & K). cbn in E. apply nth_error_In, repeat_spec in E. subst b. destruct K.
Qed.

Lemma connect_Inv x c x' : FInv x -> step cfg x (LConnect c) = Some x' -> FInv x'.
Proof.
  intros F St. cbn in St. destruct (c_born (chs x c)) eqn:Bo; [discriminate|]. set (p := pubof c) in *. set (P := pubs x p) in *.
  set (P' := {| p_sent := p_sent P; p_nxt := p_nxt P; p_run := p_run P; p_phase := p_phase P; p_bp := p_bp P;
                p_gen := p_gen P; p_mem := p_mem P; p_chans := p_chans P ++ [c] |}) in *.
  set (C' := {| c_born := true; c_up := true; c_gen := p_gen P; c_next := if is_local c then length (p_sent P) else p_nxt P;
                c_wire := []; c_ackw := []; c_bp := bp_new (nbuf cfg p); c_cache := cache_new (nbuf cfg p);
                c_clients := []; c_re := None |}) in *.
  assert (Hph : x' = setC (setP x p P') c C' /\ (forall o d l, p_phase P <> Draining o d l) /\ is_local c && existsb is_local (p_chans P) = false).
  { destruct (p_phase P) eqn:Ph; try discriminate; destruct (is_local c && existsb is_local (p_chans P)); try discriminate; injection St as <-;
    (split; [reflexivity|split; [discriminate|reflexivity]]). }
  destruct Hph as (-> & NoD & Loc). clear St. destruct F as [[CI SI] G]. set (z := setC (setP x p P') c C').
  destruct (G p) as [G1 G2 G3 G4 G5]. fold P in G1, G2, G3, G4, G5.
  assert (NI : ~ In c (p_chans P)). { intros K. destruct (g_chans _ _ _ _ G3 c K). congruence. }
  assert (Zc : chs z c = C') by apply upd_same.
  assert (Zd : forall d, d <> c -> chs z d = chs x d) by (intros d N; apply upd_other; exact N).
  assert (Zp : pubs z p = P') by apply upd_same.
  assert (Zq : forall q, q <> p -> pubs z q = pubs x q) by (intros q N; unfold z; cbn; rewrite upd_other by exact N; reflexivity).
  assert (Xc : forall d i, exc_of x d i <-> exc_of z d i).
  { intros d i. unfold exc_of. destruct (Nat.eq_dec (pubof d) p) as [->|N]; [rewrite Zp; fold P; cbn; tauto|rewrite Zq by exact N; tauto]. }
  assert (Lg : forall d, lag_of x d = lag_of z d).
  { intros d. unfold lag_of. destruct (Nat.eq_dec (pubof d) p) as [->|N]; [rewrite Zp; reflexivity|rewrite Zq by exact N; reflexivity]. }
  assert (NP : forall s m, ~ pend x s c m).
  { intros s m [K _]. destruct (b_conn _ _ _ _ _ (proj1 SI s) _ _ K) as (_ & _ & K'). congruence. }
  assert (NCl : c_clients (chs x c) = []).
  { destruct (c_clients (chs x c)) as [|s l] eqn:E; [reflexivity|exfalso].
    assert (K : s_chan (sbs x s) (pubof c) = Some c) by (apply (proj1 (proj2 SI)); rewrite E; now left).
    destruct (b_conn _ _ _ _ _ (proj1 SI s) _ _ K) as (_ & _ & K'). congruence. }
  pose proof (nb_pos cfg W c) as Hn.
  split; [split|].
  - split.
    + intros q. destruct (Nat.eq_dec q p) as [->|N]; [rewrite Zp; exact (proj1 CI p)|rewrite Zq by exact N; exact (proj1 CI q)].
    + intros d. rewrite <- Lg. pose proof (proj2 CI d) as H. cbn beta in H.
      destruct (Nat.eq_dec d c) as [->|N].
      * rewrite Zc. fold p. rewrite Zp. split; cbn.
        -- intros _. apply bp_new_inv.
        -- intros _. apply cgood_new. exact Hn.
        -- discriminate.
        -- intros _.
           assert (NH : forall i, ~ has C' i).
           { intros i [[h K]|[]]. unfold cached in K. cbn in K. rewrite get_new in K by exact Hn. discriminate. }
           assert (NO : forall i, ~ owed C' i).
           { intros i [[]|[[]|[K|[]]]]. exact (NH i K). }
           constructor; cbn; auto.
           ++ apply in_or_app. right. now left.
           ++ intros s b. split; [intros K; exfalso; eapply held_new; eauto|]. intros (m & [K|[]] & _). exfalso. exact (NP s m K).
           ++ intros s m [K|[]]. exfalso. exact (NP s m K).
           ++ intros m K. exfalso. exact (NH m K).
           ++ split; [constructor|intros m []].
           ++ change (total P') with (total P). unfold lag_of. fold p. fold P. unfold total in *.
              destruct (p_phase P) eqn:Ph; cbn in G1; destruct (PubSubModel.is_local cfg c); cbn; try lia; exfalso; eapply NoD; reflexivity.
           ++ intros m K. exfalso. exact (NO m K).
           ++ intros m h K. unfold cached in K. cbn in K. rewrite get_new in K by exact Hn. discriminate.
      * rewrite (Zd d N). destruct (Nat.eq_dec (pubof d) p) as [E|E].
        -- rewrite E in *. rewrite Zp. fold P in H. eapply ch_inv_pub with (P := P); try reflexivity; auto.
           ++ intros K. cbn. apply in_or_app. auto.
           ++ eapply ch_inv_ext; [..|exact H]; auto; [tauto|]. intros i. apply Xc.
        -- rewrite Zq by exact E. eapply ch_inv_ext; [..|exact H]; auto; [tauto|]. intros i. apply Xc.
  - assert (S1 : SInv (next_of x) (setP x p P')) by (apply SInv_setP_keep; [..|exact SI]; reflexivity).
    destruct S1 as (S1 & S2 & S3). split; [|split].
    + intros s. destruct (S1 s). constructor; auto.
      * intros q d K. destruct (b_conn q d K) as (K1 & K2 & K3). assert (d <> c) by (intros ->; cbn in K3; congruence). rewrite Zd by assumption. auto.
      * intros q d K. destruct (b_conn q d K) as (_ & _ & K3). assert (d <> c) by (intros ->; cbn in K3; congruence).
        unfold next_of. rewrite Zd by assumption. exact (b_order q d K).
      * intros r K1 K2 K3. destruct (b_read r K1 K2) as [K4 _]. destruct (b_conn _ _ K4) as (_ & _ & K5).
        assert (r_chan r <> c) by (intros E; rewrite E in K5; cbn in K5; congruence). rewrite Zd in K3 by assumption. exact (b_hgood r K1 K2 K3).
    + intros d s K. destruct (Nat.eq_dec d c) as [->|N]; [rewrite Zc in K; destruct K|]. rewrite Zd in K by exact N. exact (S2 d s K).
    + intros d. destruct (Nat.eq_dec d c) as [->|N]; [rewrite Zc; constructor|]. rewrite Zd by exact N. exact (S3 d).
  - assert (BzI : forall d, c_born (chs x d) = true -> c_born (chs z d) = true).
    { intros d K. destruct (Nat.eq_dec d c) as [->|N]; [now rewrite Zc|now rewrite Zd]. }
    intros q. destruct (Nat.eq_dec q p) as [->|N].
    + rewrite Zp. constructor; auto.
      * destruct G3. constructor; cbn [p_chans P'].
        -- intros d K. apply in_app_or in K. destruct K as [K|[<-|[]]]; [|split; [reflexivity|now rewrite Zc]]. destruct (g_chans d K). auto.
        -- apply NoDup_snoc; auto.
        -- assert (NoLoc : is_local c = true -> forall d, In d (p_chans P) -> is_local d = false).
           { intros L d K. rewrite L in Loc. cbn in Loc. destruct (PubSubModel.is_local cfg d) eqn:Ld; [|reflexivity].
             assert (existsb is_local (p_chans P) = true) by (apply existsb_exists; eauto). congruence. }
           intros a b Ka Kb La Lb. apply in_app_or in Ka, Kb. destruct Ka as [Ka|[<-|[]]], Kb as [Kb|[<-|[]]]; auto.
           ++ rewrite (NoLoc Lb a Ka) in La. discriminate.
           ++ rewrite (NoLoc La b Kb) in Lb. discriminate.
      * intros d K L. cbn in K. apply in_app_or in K. destruct K as [K|[<-|[]]].
        -- assert (d <> c) by congruence. rewrite Zd by assumption. exact (G4 d K L).
        -- rewrite Zc. cbn. rewrite L. reflexivity.
      * cbn. destruct (p_phase P) eqn:Ph; auto. exfalso. eapply NoD; reflexivity.
    + rewrite Zq by exact N. eapply pg_ext with (P := pubs x q); [exact BzI| |reflexivity..|exact (G q)].
      intros d K _. assert (d <> c). { intros ->. destruct (g_chans _ _ _ _ (g_pc _ _ _ _ (G q)) c K). congruence. } now rewrite Zd.
Qed.
End Steps.
