(** The invariant is preserved by a broadcast. *)
From Coq Require Import List ZArith Arith Bool Lia.
From Verif Require Import BackpressureModel BackpressureProofs CacheModel CacheProofs TransportModel PubSubModel PubSubSpec PubSubInv PubSubSub PubSubSteps PubSubSteps2.
Import ListNotations.

Section Steps.
Context {Obj : Type}.
Variable cfg : config.
Hypothesis W : wf cfg.
Notation st := (st Obj).
Notation pubst := (pubst Obj).
Notation chst := (chst Obj).
Notation sbst := (sbst Obj).
Notation CInv := (CInv cfg).
Notation nb := (nb cfg).
Notation pubof := (pubof cfg).
Notation ch_inv := (ch_inv cfg).
Notation up_inv := (up_inv cfg).
Notation SInv := (SInv cfg).
Notation Inv := (Inv cfg).
Notation pend := (pend cfg).
Notation is_local := (is_local cfg).
Notation is_shm := (is_shm cfg).
Notation pchans := (pchans cfg).
Notation todo_ok := (todo_ok cfg).
Notation FInv := (FInv cfg).
Notation pg := (pg cfg).
Notation exc_of := (exc_of cfg).
Notation lag_of := (lag_of cfg).
Implicit Types x y z : st.
Implicit Types P : pubst.
Implicit Types C : chst.
Implicit Types o : Obj.


Lemma put_local_Inv (exc : nat -> nat -> Prop) (lag : nat -> bool) x c m o :
  Inv none3 exc none2 lag (next_of x) x -> c_born (chs x c) = true -> is_local c = true -> c_next (chs x c) = m ->
  total (pubs x (pubof c)) = S m -> nth_error (p_sent (pubs x (pubof c))) m = Some o -> lag c = true ->
  let x' := put_local cfg x c m o in
  Inv none3 exc none2 (fun d => if d =? c then false else lag d) (next_of x') x' /\
  (forall p, pubs x' p = with_bp (pubs x p) (p_bp (pubs x' p))) /\
  (forall d, c_born (chs x' d) = c_born (chs x d) /\ c_up (chs x' d) = c_up (chs x d) /\
             c_next (chs x' d) = if d =? c then S m else c_next (chs x d)).
Proof.
  intros [CI SI] Bo Lc En T Ho Hl. cbn zeta. unfold put_local. cbn zeta.
  set (lag' := fun d => if d =? c then false else lag d).
  set (exc2 := fun c' m' => c' = c /\ m' = m).
  set (y := setC x c (bump (chs x c))).
  assert (Yc : chs y c = bump (chs x c)) by apply upd_same.
  assert (Yd : forall d, d <> c -> chs y d = chs x d) by (intros d N; apply upd_other; exact N).
  pose proof (nb_pos cfg W c) as Hn.
  assert (Shm : is_shm c = false) by (unfold PubSubModel.is_shm, PubSubModel.is_local in *; destruct (kind cfg c); congruence).
  destruct CI as [CI1 CI2]. pose proof (CI2 c) as [B1 B2 B3 U].
  specialize (B1 Bo). specialize (B2 Bo).
  assert (Hy : ch_inv (nb c) c (pubs x (pubof c)) (chs y c) (fun s m => pend x s c m \/ none3 s c m) (exc c) (exc2 c) (lag' c)).
  { rewrite Yc. unfold lag'. rewrite Nat.eqb_refl. split; cbn; auto. intros Up. specialize (U Up). rewrite Hl in U. destruct U.
    destruct (u_loc Lc) as (L1 & L2 & L3). unfold rem in *. rewrite L1, L2 in *. cbn in *.
    constructor; cbn; auto.
    - intros s i H. destruct (u_pend s i H) as (K1 & K2 & [K3|K3]); [|destruct K3]. repeat split; auto.
    - intros i H. destruct (u_has i H). split; [lia|auto].
    - destruct u_ackw as [K1 K2]. split; auto. intros i K. specialize (K2 i K). lia.
    - unfold rem. cbn. now rewrite L1, L2.
    - unfold rem. cbn. rewrite L1, L2. cbn. lia.
    - rewrite L1, L2. exact u_frames. }
  assert (Iy : Inv none3 exc exc2 lag' (mids m c (c_clients (chs y c)) (next_of y)) y).
  { split.
    - eapply CInv_chg with (x := x) (c := c); [exact (conj CI1 CI2)|reflexivity|exact Yd|reflexivity| |exact Hy].
      intros d N. refine (conj _ (conj _ _)); [auto|intros ? []|]. unfold lag'. destruct (Nat.eqb_spec d c); [contradiction|reflexivity].
    - eapply SInv_chg with (x := x) (c := c); [exact SI|reflexivity|exact Yd|reflexivity|..].
      + now rewrite Yc.
      + now rewrite Yc.
      + now rewrite Yc.
      + intros s d Hs. unfold mids. rewrite Yc. cbn [c_clients bump]. unfold next_of.
        destruct (Nat.eqb_spec d c) as [->|N].
        * destruct (mem_in_dec s (c_clients (chs x c))) as [->|[_ N]]; [|contradiction]. cbn. lia.
        * cbn [andb]. now rewrite Yd. }
  assert (Ny : c_next (chs y c) = S m) by (rewrite Yc; cbn; lia).
  destruct (notify_list_Inv cfg W exc exc2 lag' (next_of y) c m (c_clients (chs y c)) y Iy Ny) as [Iz _].
  { apply incl_refl. } { apply (proj2 (proj2 (proj2 Iy))). } { intros s _. exact Ny. }
  { intros _. split; [|right; unfold exc2; auto]. unfold y. cbn [pubs setC]. lia. }
  change (fold_left (notify1 cfg c m) (c_clients (chs y c)) y) with (notify cfg y c m) in *.
  set (z := notify cfg y c m) in *.
  pose proof (core_notify_list cfg c m (c_clients (chs y c)) y) as Kz. fold (notify cfg y c m) in Kz. fold z in Kz.
  assert (Pz : forall p, pubs z p = with_bp (pubs x p) (p_bp (pubs z p))) by (intros p; apply (k_pub _ _ Kz p)).
  assert (Cz : forall d, c_born (chs z d) = c_born (chs x d) /\ c_up (chs z d) = c_up (chs x d) /\
                         c_next (chs z d) = if d =? c then S m else c_next (chs x d)).
  { intros d. rewrite (k_born _ _ Kz), (k_up _ _ Kz), (k_next _ _ Kz). destruct (Nat.eqb_spec d c) as [->|N].
    - rewrite Yc. cbn. repeat split; auto; lia.
    - rewrite Yd; auto. }
  assert (Boz : c_born (chs z c) = true) by (rewrite (proj1 (Cz c)); exact Bo).
  assert (Tz : total (pubs z (pubof c)) = S m) by (rewrite Pz; exact T).
  assert (Hoz : nth_error (p_sent (pubs z (pubof c))) m = Some o) by (rewrite Pz; exact Ho).
  destruct Iz as [[CZ1 CZ2] SIz]. pose proof (CZ2 c) as [D1 D2 D3 Uz]. specialize (D1 Boz). specialize (D2 Boz).
  assert (NextZ : forall s d, next_of y s d = next_of z s d) by (intros; unfold next_of; now rewrite (k_next _ _ Kz)).
  destruct (anyone cfg z c m) eqn:An.
  - (* some client: cache it and take the publisher's lease *)
    set (k := cache_put (c_cache (chs z c)) {| e_obj := Val o; e_id := m; e_mem := None |}).
    set (v := setC z c (with_cache (chs z c) k)).
    change (pubs v (pubof c)) with (pubs z (pubof c)).
    set (t := setP v (pubof c) (with_bp (pubs z (pubof c)) (bp_lease c (slot_of cfg (pubof c) m) (p_bp (pubs z (pubof c)))))).
    assert (Tc : chs t c = with_cache (chs z c) k) by apply upd_same.
    assert (Td : forall d, d <> c -> chs t d = chs z d) by (intros d N; apply upd_other; exact N).
    assert (Tp : forall p, pubs t p = if p =? pubof c then with_bp (pubs z (pubof c)) (bp_lease c (m mod nb c) (p_bp (pubs z (pubof c)))) else pubs z p) by reflexivity.
    assert (Dis : c_up (chs z c) = true -> forall i h, cached (chs z c) i h -> i <> m -> i mod nb c <> m mod nb c).
    { intros Up i h K N E. specialize (Uz Up).
      assert (Oi : owed (chs z c) i) by (right; right; left; left; eauto).
      destruct (u_owed _ _ _ _ _ _ _ _ _ Uz i Oi) as [K1 _].
      pose proof (owed_lt cfg _ _ _ _ _ _ _ _ _ Uz Oi). apply N. apply (window_mod (nb c)); auto. lia. }
    assert (Gk : forall i h, cache_get k i = Some h -> (i = m /\ h = Val o) \/ cached (chs z c) i h).
    { intros i h. unfold k. rewrite (get_put (nb c)) by auto. cbn [e_id e_obj]. destruct (Nat.eqb_spec m i) as [<-|N].
      - intros [= <-]. auto.
      - destruct (_ =? _); [discriminate|auto]. }
    assert (Gk2 : c_up (chs z c) = true -> forall i, has (chs z c) i -> has (chs t c) i).
    { intros Up i [[h K]|K].
      - left. rewrite Tc. unfold cached. cbn. unfold k. rewrite (get_put (nb c)) by auto. cbn [e_id e_obj].
        destruct (Nat.eqb_spec m i) as [<-|N]; [eauto|]. destruct (Nat.eqb_spec (m mod nb c) (i mod nb c)) as [E|E]; [|eauto].
        exfalso. eapply (Dis Up i h); eauto.
      - right. rewrite Tc. exact K. }
    assert (Gm : has (chs t c) m).
    { left. exists (Val o). rewrite Tc. unfold cached. cbn. unfold k. rewrite (get_put (nb c)) by auto. cbn. now rewrite Nat.eqb_refl. }
    assert (Gk3 : forall i, has (chs t c) i -> i = m \/ has (chs z c) i).
    { intros i [[h K]|K]; rewrite Tc in K.
      - apply Gk in K. destruct K as [[-> _]|K]; [auto|right; left; eauto].
      - right. right. exact K. }
    split; [split|split].
    + split.
      * intros p. rewrite Tp. destruct (Nat.eqb_spec p (pubof c)) as [->|N]; [|apply CZ1]. cbn. apply bp_lease_inv, CZ1.
      * intros d. destruct (Nat.eq_dec d c) as [->|N].
        -- rewrite Tp, Nat.eqb_refl. rewrite Tc in *.
           set (P' := with_bp (pubs z (pubof c)) _).
           assert (Held : forall u b, held_in (p_bp P') u b <-> (u = c /\ b = m mod nb c) \/ held_in (p_bp (pubs z (pubof c))) u b).
           { intros u b. cbn. rewrite held_lease. rewrite (inv_len _ _ (CZ1 _)). split; [tauto|]. intros [[-> ->]|H]; [left|auto].
             repeat split; auto. apply mod_lt. exact Hn. }
           split; cbn; auto.
           ++ intros _. now apply cgood_put.
           ++ intros Dn i h K. apply Gk in K. destruct K as [[-> ->]|K]; [eauto|auto].
           ++ intros Up. specialize (Dis Up). specialize (Gk2 Up). specialize (Uz Up).
              assert (OWN : own cfg c = true) by (apply (own_local cfg W); exact Lc).
              destruct Uz. destruct (u_loc Lc) as (L1 & L2 & L3). constructor; cbn; auto.
              ** intros s i H. destruct (u_pend s i H) as (K1 & K2 & K3). repeat split; auto. left.
                 destruct K3 as [K3|[_ ->]]; auto.
              ** intros i H. rewrite L3. split; [|auto]. apply Gk3 in H. destruct H as [->|H]; [|now apply u_has].
                 rewrite (proj2 (proj2 (Cz c))), Nat.eqb_refl. lia.
              ** intros i H.
                 assert (Q : i = m \/ owed (chs z c) i).
                 { destruct H as [H|[H|[H|H]]]; [right; left; exact H|right; right; left; exact H| |right; right; right; right; exact H].
                   apply Gk3 in H. destruct H as [->|H]; [auto|right; right; right; left; exact H]. }
                 destruct Q as [->|Q].
                 --- split; [apply Nat.le_trans with (S m); [apply Nat.eq_le_incl; exact Tz|lia]|]. left. apply Held. auto.
                 --- destruct (u_owed i Q) as [K1 K2]. split; [exact K1|]. destruct K2 as [K2|K2]; [left; apply Held; auto|auto].
              ** intros i h K. apply Gk in K. destruct K as [[-> ->]|K].
                 --- repeat split; auto. discriminate.
                 --- destruct (u_handles i h K) as (K1 & K2 & K3). refine (conj _ (conj K2 K3)). eapply hgood_keep; [..|exact K1]; reflexivity.
              ** rewrite L2 in *. eapply frames_keep; [..|exact u_frames]; reflexivity.
        -- rewrite (Td d N). assert (Hd : ch_inv (nb d) d (pubs z (pubof d)) (chs z d) (fun s m => pend z s d m \/ none3 s d m) (exc d) (none2 d) (lag' d)).
           { eapply ch_inv_ext; [..|apply (CZ2 d)]; auto; [tauto|]. intros i [? _]. contradiction. }
           eapply ch_inv_pub; [..|exact Hd]; rewrite Tp; destruct (Nat.eqb_spec (pubof d) (pubof c)) as [E|E]; auto; rewrite E; auto.
           intros b Hb. cbn. rewrite held_lease. auto.
    + eapply SInv_next with (next := next_of y).
      { intros s d _. rewrite NextZ. unfold next_of. destruct (Nat.eq_dec d c) as [->|N]; [now rewrite Tc|now rewrite Td]. }
      apply SInv_setP_keep; try reflexivity. apply SInv_setC; auto.
    + intros p. rewrite Tp. destruct (Nat.eqb_spec p (pubof c)) as [->|N]; [|apply Pz]. cbn. rewrite Pz at 1. reflexivity.
    + intros d. destruct (Nat.eq_dec d c) as [->|N]; [rewrite Tc; apply (Cz c)|rewrite Td by exact N; apply Cz].
  - (* nobody listens *)
    split; [split|split; [exact Pz|exact Cz]].
    + split; [exact CZ1|]. intros d. destruct (Nat.eq_dec d c) as [->|N].
      * pose proof (fun Up => anyone_spec cfg W _ _ _ _ z c m (conj CZ1 CZ2) Up An) as NP.
        split; auto. intros Up. specialize (NP Up). specialize (Uz Up). destruct Uz. constructor; auto.
        intros s i H. destruct (u_pend s i H) as (K1 & K2 & [K3|[_ ->]]); repeat split; auto. exfalso. exact (NP s m H eq_refl).
      * eapply ch_inv_ext; [..|apply (CZ2 d)]; auto; [tauto|]. intros i [? _]. contradiction.
    + eapply SInv_next; [|exact SIz]. intros s d _. apply NextZ.
Qed.

(** A broadcast of [p] in the middle of its loop: [todo] are the channels not yet written to. *)
Record mid x (p : nat) (o : Obj) (todo : list nat) : Prop := {
  m_inv : Inv none3 (fun c m => pubof c <> p /\ exc_of x c m) none2
              (fun c => if pubof c =? p then mem c todo else lag_of x c) (next_of x) x;
  m_pg : forall q, q <> p -> pg x q (pubs x q);
  m_total : total (pubs x p) = S (p_nxt (pubs x p));
  m_obj : nth_error (p_sent (pubs x p)) (p_nxt (pubs x p)) = Some o;
  m_pc : pchans x p (pubs x p);
  m_loc : forall c, In c (p_chans (pubs x p)) -> is_local c = true -> c_next (chs x c) = total (pubs x p);
  m_todo : todo_ok p (pubs x p) o todo todo }.

Lemma exc_of_setP x p P' c m : pubof c <> p -> exc_of (setP x p P') c m <-> exc_of x c m.
Proof. intros N. unfold exc_of. cbn. rewrite upd_other by exact N. tauto. Qed.
Lemma lag_of_setP x p P' c : pubof c <> p -> lag_of (setP x p P') c = lag_of x c.
Proof. intros N. unfold lag_of. cbn. rewrite upd_other by exact N. reflexivity. Qed.
Lemma pg_setP_other x p P' q : q <> p -> pg x q (pubs x q) -> pg (setP x p P') q (pubs (setP x p P') q).
Proof. intros N G. cbn. rewrite upd_other by exact N. eapply pg_ext; [..|exact G]; auto. Qed.

Lemma frame_ch n c P C pd (exc exc' : nat -> Prop) f :
  0 < n -> is_local c = false -> total P = S (fid f) ->
  match f with FTcp m o => is_shm c = false /\ nth_error (p_sent P) m = Some o
             | FShm m g => is_shm c = true /\ g = p_gen P /\ good n P m g end ->
  (forall m, exc m -> exc' m) -> exc' (fid f) ->
  ch_inv n c P C pd exc (fun _ => False) true -> ch_inv n c P (with_wire C (c_wire C ++ [f])) pd exc' (fun _ => False) false.
Proof.
  intros Hn NL T Hf E1 E2 [A B D U]. split; auto. intros Up. specialize (U Up).
  assert (FO : forall glo, glo <= p_gen P -> frames_ok n P (is_shm c) glo (c_wire C) -> frames_ok n P (is_shm c) glo (c_wire C ++ [f])).
  { intros glo L F. apply frames_snoc; auto. }
  destruct U. constructor; cbn; auto.
  - unfold rem in *. cbn. rewrite map_app, app_assoc. cbn [map]. rewrite app_length. cbn [length]. rewrite seq_app, <- u_ids. cbn [seq].
    do 2 f_equal. lia.
  - unfold rem in *. cbn. rewrite map_app, app_assoc, app_length. cbn. lia.
  - intros m H.
    assert (Q : m = fid f \/ owed C m).
    { destruct H as [H|[H|[H|H]]].
      - cbn in H. rewrite map_app in H. apply in_app_or in H. destruct H as [H|[H|[]]]; [right; left; exact H|auto].
      - right; right; left; exact H.
      - right; right; right; left; exact H.
      - right; right; right; right; exact H. }
    destruct Q as [->|Q]; [split; [lia|auto]|]. destruct (u_owed m Q) as [K1 [K2|K2]]; auto.
  - destruct (c_re C) as [[[keys m] g]|].
    + destruct u_frames as (F1 & F2 & F3 & F4 & F5). refine (conj F1 (conj F2 (conj F3 (conj F4 _)))). apply FO; [lia|exact F5].
    + apply FO; auto.
  - intros L. congruence.
Qed.

Lemma mem_false s l : ~ In s l -> mem s l = false.
Proof. intros H. destruct (mem s l) eqn:E; [|reflexivity]. apply mem_In in E. contradiction. Qed.
Lemma mem_true s l : In s l -> mem s l = true.
Proof. intros H. now apply mem_In. Qed.

Lemma next_channel_ok x p o todo : mid x p o todo -> FInv (next_channel cfg x p o todo).
Proof.
  intros []. destruct todo as [|c todo]; cbn [next_channel].
  - unfold finish. cbn zeta. set (P := pubs x p) in *.
    set (P' := {| p_sent := p_sent P; p_nxt := S (p_nxt P); p_run := p_run P; p_phase := Idle; p_bp := p_bp P; p_gen := p_gen P;
                  p_mem := p_mem P; p_chans := p_chans P |}).
    destruct m_inv0 as [CI SI]. split; [split|].
    + eapply CInv_setP; [exact CI|exact (proj1 CI p)|..].
      * intros c Ec. pose proof (proj2 CI c) as H. cbn beta in H. rewrite Ec in H. rewrite Nat.eqb_refl in H. cbn [mem existsb] in H.
        unfold lag_of. cbn [pubs setP]. rewrite Ec, upd_same. cbn [p_phase P'].
        eapply ch_inv_pub with (P := P); try reflexivity; auto. eapply ch_inv_ext; [..|exact H]; auto; [tauto|]. intros m [K _]. congruence.
      * intros c N. split; [|].
        -- intros m [_ K]. now apply exc_of_setP.
        -- rewrite lag_of_setP by exact N. destruct (Nat.eqb_spec (pubof c) p); [contradiction|reflexivity].
    + eapply SInv_next; [|apply SInv_setP_keep; [..|exact SI]; reflexivity]. reflexivity.
    + intros q. destruct (Nat.eq_dec q p) as [->|N]; [|now apply pg_setP_other; auto].
      cbn. rewrite upd_same. constructor; cbn; auto.
      * unfold total in *. cbn. lia.
      * eapply pchans_ext; [..|exact m_pc0]; auto.
  - destruct m_todo0 as (T1 & T2 & T3 & T4).
    assert (Hc : In c (p_chans (pubs x p))) by (apply T2; now left).
    destruct (g_chans _ _ _ _ m_pc0 c Hc) as [Ec Bo].
    assert (NL : is_local c = false) by (apply T3; now left).
    pose proof (nb_pos cfg W c) as Hn.
    unfold write_frame. set (P := pubs x p) in *. set (f := frame_for cfg P c (p_nxt P) o).
    assert (Ef : fid f = p_nxt P) by (unfold f, frame_for; destruct (PubSubModel.is_shm cfg c); reflexivity).
    set (y := setC x c (with_wire (chs x c) (c_wire (chs x c) ++ [f]))).
    change (pubs y p) with P.
    set (P' := with_phase P (Draining o c todo)). set (z := setP y p P').
    assert (Yd : forall d, d <> c -> chs y d = chs x d) by (intros d N; apply upd_other; exact N).
    assert (Yc : chs y c = with_wire (chs x c) (c_wire (chs x c) ++ [f])) by apply upd_same.
    assert (Zp : pubs z p = P') by apply upd_same.
    inversion T1 as [|? ? NI ND]; subst.
    assert (Nx : forall s d, next_of x s d = next_of z s d).
    { intros s d. unfold next_of. change (chs z d) with (chs y d). destruct (Nat.eq_dec d c) as [->|N]; [now rewrite Yc|now rewrite Yd]. }
    destruct m_inv0 as [CI SI]. split; [split|].
    + (* channels *)
      split.
      { intros q. destruct (Nat.eq_dec q (pubof c)) as [->|N]; [rewrite Zp; exact (proj1 CI (pubof c))|]. unfold z. cbn. rewrite upd_other by exact N. exact (proj1 CI q). }
      intros d. change (chs z d) with (chs y d). pose proof (proj2 CI d) as H. cbn beta in H.
      destruct (Nat.eq_dec (pubof d) (pubof c)) as [Ed|Ed].
      * rewrite Ed in *. rewrite Nat.eqb_refl in H. rewrite Zp. fold P in H.
        assert (L' : lag_of z d = mem d todo) by (unfold lag_of; rewrite Ed, Zp; reflexivity).
        assert (X' : forall m, exc_of z d m <-> d = c /\ m = p_nxt P) by (intros m; unfold exc_of; rewrite Ed, Zp; cbn; tauto).
        rewrite L'. eapply ch_inv_pub with (P := P); try reflexivity; auto.
        destruct (Nat.eq_dec d c) as [->|N].
        -- rewrite Yc, (mem_false c todo NI). rewrite (mem_true c (c :: todo)) in H by now left.
           eapply frame_ch; [..|exact H]; auto.
           ++ rewrite Ef. exact m_total0.
           ++ unfold f, frame_for. destruct (PubSubModel.is_shm cfg c) eqn:Sh; [|auto]. repeat split; auto.
              exists o. split; [exact m_obj0|]. intros g' Hg. assert (g' = p_gen P) as -> by lia. apply T4. exists c. split; [now left|exact Sh].
           ++ intros m [K _]. congruence.
           ++ rewrite Ef. apply X'. auto.
        -- rewrite (Yd d N). replace (mem d todo) with (mem d (c :: todo)).
           ++ eapply ch_inv_ext; [..|exact H]; auto; [tauto|]. intros m [K _]. congruence.
           ++ unfold mem. cbn. destruct (Nat.eqb_spec d c); [contradiction|reflexivity].
      * assert (N : d <> c) by congruence. rewrite (Yd d N). destruct (Nat.eqb_spec (pubof d) (pubof c)); [contradiction|].
        unfold z. cbn [pubs setP]. rewrite upd_other by exact Ed. rewrite lag_of_setP by exact Ed.
        eapply ch_inv_ext; [..|exact H]; auto; [tauto|]. intros m [_ K]. now apply exc_of_setP.
    + eapply SInv_next; [intros; apply Nx|]. apply SInv_setP_keep; try reflexivity. apply SInv_setC; auto.
    + intros q.
      assert (Nxt : forall d, c_next (chs z d) = c_next (chs x d)) by (intros d; symmetry; exact (Nx 0 d)).
      assert (Bz : forall d, c_born (chs x d) = true -> c_born (chs z d) = true).
      { intros d. change (chs z d) with (chs y d). destruct (Nat.eq_dec d c) as [->|N]; [now rewrite Yc|now rewrite Yd]. }
      destruct (Nat.eq_dec q (pubof c)) as [->|N].
      * rewrite Zp. constructor; cbn; auto.
        -- unfold total in *. cbn. lia.
        -- eapply pchans_ext; [..|exact m_pc0]; auto.
        -- intros d K1 K2. etransitivity; [exact (Nxt d)|exact (m_loc0 d K1 K2)].
        -- refine (conj T1 (conj T2 (conj T3 _))). intros (d & K1 & K2). apply T4. exists d. split; [now right|exact K2].
      * unfold z. cbn. rewrite upd_other by exact N. eapply pg_ext; [..|exact (m_pg0 q N)]; auto.
Qed.

(** Local delivery is done, nothing has been written to the other channels. *)
Record premid x (p : nat) (o : Obj) : Prop := {
  q_inv : Inv none3 (fun c m => pubof c <> p /\ exc_of x c m) none2
              (fun c => if pubof c =? p then negb (is_local c) else lag_of x c) (next_of x) x;
  q_pg : forall q, q <> p -> pg x q (pubs x q);
  q_total : total (pubs x p) = S (p_nxt (pubs x p));
  q_obj : nth_error (p_sent (pubs x p)) (p_nxt (pubs x p)) = Some o;
  q_pc : pchans x p (pubs x p);
  q_loc : forall c, In c (p_chans (pubs x p)) -> is_local c = true -> c_next (chs x c) = total (pubs x p) }.

Notation non_local := (non_local cfg).
Lemma in_non_local c l : In c (non_local l) <-> In c l /\ is_local c = false.
Proof. unfold PubSubModel.non_local. rewrite filter_In. destruct (PubSubModel.is_local cfg c); cbn; intuition congruence. Qed.

Lemma premid_mid x p o :
  premid x p o ->
  ((exists c, In c (non_local (p_chans (pubs x p))) /\ is_shm c = true) ->
   p_mem (pubs x p) (p_gen (pubs x p)) (p_nxt (pubs x p) mod nbuf cfg p) = Some (p_nxt (pubs x p), o)) ->
  mid x p o (non_local (p_chans (pubs x p))).
Proof.
  intros [] Hm. constructor; auto.
  - destruct q_inv0 as [CI SI]. split; [|exact SI]. eapply CInv_lag; [|exact CI]. intros c Up. split; [auto|].
    pose proof (proj2 CI c) as [_ _ _ U]. specialize (U Up). destruct (Nat.eqb_spec (pubof c) p) as [E|]; [|reflexivity].
    pose proof (u_in _ _ _ _ _ _ _ _ _ U) as I. rewrite E in I.
    destruct (PubSubModel.is_local cfg c) eqn:L; cbn; symmetry; [apply mem_false|apply mem_true]; rewrite in_non_local; [intros [_ K]; congruence|auto].
  - refine (conj _ (conj _ (conj _ Hm))).
    + apply NoDup_filter. apply (g_nodup _ _ _ _ q_pc0).
    + intros c. rewrite in_non_local. tauto.
    + intros c. rewrite in_non_local. tauto.
Qed.

Lemma premid_write x p o : premid x p o -> premid (write_slot cfg x p o) p o.
Proof.
  intros []. set (y := write_slot cfg x p o).
  assert (I : Inv none3 (fun c m => pubof c <> p /\ exc_of x c m) none2
              (fun c => if pubof c =? p then negb (is_local c) else lag_of x c) (next_of y) y).
  { apply write_slot_Inv; auto. intros c E _ Sh. rewrite E, Nat.eqb_refl. split; [|intros m [K _]; congruence].
    unfold PubSubModel.is_shm, PubSubModel.is_local in *. destruct (kind cfg c); try discriminate; reflexivity. }
  assert (Yp : pubs y p = {| p_sent := p_sent (pubs x p); p_nxt := p_nxt (pubs x p); p_run := p_run (pubs x p); p_phase := p_phase (pubs x p); p_bp := p_bp (pubs x p); p_gen := p_gen (pubs x p);
                p_mem := upd2 (p_mem (pubs x p)) (p_gen (pubs x p)) (slot_of cfg p (p_nxt (pubs x p))) (Some (p_nxt (pubs x p), o)); p_chans := p_chans (pubs x p) |}) by apply upd_same.
  constructor; rewrite ?Yp; auto.
  - destruct I as [CI SI]. split; [|exact SI]. eapply CInv_lag; [|exact CI]. intros c _. split.
    + intros m [N K]. split; [exact N|]. now apply exc_of_setP.
    + destruct (Nat.eqb_spec (pubof c) p); [reflexivity|]. symmetry. now apply lag_of_setP.
  - intros q N. now apply pg_setP_other; auto.
  - eapply pchans_ext; [..|exact q_pc0]; auto.
Qed.

Lemma write_slot_mem x p o :
  let y := write_slot cfg x p o in
  p_mem (pubs y p) (p_gen (pubs y p)) (p_nxt (pubs y p) mod nbuf cfg p) = Some (p_nxt (pubs y p), o) /\ p_chans (pubs y p) = p_chans (pubs x p).
Proof.
  cbn. rewrite upd_same. cbn. unfold upd2, slot_of. rewrite !Nat.eqb_refl. auto.
Qed.

Lemma premid_grow x p o : premid x p o -> premid (setP x p (grow_pub (pubs x p))) p o.
Proof.
  intros []. set (y := setP x p (grow_pub (pubs x p))).
  pose proof (grow_Inv cfg _ _ x p q_inv0) as I. fold y in I.
  assert (Yp : pubs y p = grow_pub (pubs x p)) by apply upd_same.
  constructor; rewrite ?Yp; auto.
  - destruct I as [CI SI]. split; [|exact SI]. eapply CInv_lag; [|exact CI]. intros c _. split.
    + intros m [N K]. split; [exact N|]. now apply exc_of_setP.
    + destruct (Nat.eqb_spec (pubof c) p); [reflexivity|]. symmetry. now apply lag_of_setP.
  - intros q N. now apply pg_setP_other; auto.
  - eapply pchans_ext; [..|exact q_pc0]; auto.
Qed.

Lemma premid_growing x p o : premid x p o -> FInv (setP x p (with_phase (pubs x p) (Growing o))).
Proof.
  intros []. destruct q_inv0 as [CI SI]. set (P := pubs x p) in *. set (y := setP x p (with_phase P (Growing o))).
  assert (Yp : pubs y p = with_phase P (Growing o)) by apply upd_same.
  split; [split|].
  - eapply CInv_setP; [exact CI|exact (proj1 CI p)|..].
    + intros c Ec. pose proof (proj2 CI c) as H. cbn beta in H. rewrite Ec, Nat.eqb_refl in H.
      replace (lag_of y c) with (negb (is_local c)) by (unfold lag_of; rewrite Ec, Yp; reflexivity).
      eapply ch_inv_pub with (P := P); try reflexivity; auto. eapply ch_inv_ext; [..|exact H]; auto; [tauto|]. intros m [K _]. congruence.
    + intros c N. split.
      * intros m [_ K]. now apply exc_of_setP.
      * destruct (Nat.eqb_spec (pubof c) p); [contradiction|]. symmetry. now apply lag_of_setP.
  - eapply SInv_next; [|apply SInv_setP_keep; [..|exact SI]; reflexivity]. reflexivity.
  - intros q. destruct (Nat.eq_dec q p) as [->|N]; [|now apply pg_setP_other; auto].
    rewrite Yp. constructor; cbn; auto.
    + unfold total in *. cbn. lia.
    + eapply pchans_ext; [..|exact q_pc0]; auto.
Qed.

Lemma growing_premid x p o : FInv x -> p_phase (pubs x p) = Growing o -> premid x p o.
Proof.
  intros [[CI SI] G] Ph. destruct (G p). rewrite Ph in *. constructor; auto; [|cbn in *; lia].
  split; [|exact SI]. eapply CInv_lag; [|exact CI]. intros c _. split.
  - intros m K. split; [|exact K]. intros E. unfold exc_of in K. rewrite E, Ph in K. exact K.
  - destruct (Nat.eqb_spec (pubof c) p) as [E|]; [|reflexivity]. unfold lag_of. rewrite E, Ph. reflexivity.
Qed.

Lemma grown_Inv x p o : FInv x -> p_phase (pubs x p) = Growing o -> FInv (grown cfg x p o).
Proof.
  intros F Ph. pose proof (growing_premid x p o F Ph) as Q. apply premid_grow in Q. apply premid_write in Q.
  unfold grown. cbn zeta. set (P := pubs x p) in *. fold (grow_pub P). set (y := setP x p (grow_pub P)) in *.
  destruct (write_slot_mem y p o) as [M1 M2].
  replace (p_chans P) with (p_chans (pubs (write_slot cfg y p o) p)).
  - apply next_channel_ok, premid_mid; auto.
  - rewrite M2. unfold y. cbn. now rewrite upd_same.
Qed.

Definition append_pub P o : pubst :=
  {| p_sent := p_sent P ++ [o]; p_nxt := p_nxt P; p_run := p_run P; p_phase := p_phase P; p_bp := p_bp P; p_gen := p_gen P; p_mem := p_mem P; p_chans := p_chans P |}.

Lemma start_premid x p o :
  FInv x -> busy (p_phase (pubs x p)) = 0 -> bp_available (p_bp (pubs x p)) (slot_of cfg p (p_nxt (pubs x p))) = Some true ->
  let x1 := setP x p (append_pub (pubs x p) o) in
  let x2 := match find is_local (p_chans (pubs x p)) with Some c => put_local cfg x1 c (p_nxt (pubs x p)) o | None => x1 end in
  premid x2 p o /\ p_chans (pubs x2 p) = p_chans (pubs x p).
Proof.
  intros [[CI SI] G] Hb Av. cbn zeta. set (P := pubs x p) in *. set (x1 := setP x p (append_pub P o)).
  assert (Xp : pubs x1 p = append_pub P o) by apply upd_same.
  destruct (G p) as [G1 _ G3 G4 _]. fold P in G1, G3, G4. rewrite Hb in G1.
  assert (T : total P = p_nxt P) by lia.
  assert (T1 : total (append_pub P o) = S (p_nxt P)) by (unfold total in *; cbn; rewrite app_length; cbn; lia).
  assert (O1 : nth_error (p_sent (append_pub P o)) (p_nxt P) = Some o).
  { cbn. unfold total in T. rewrite nth_error_app2 by lia. replace (p_nxt P - length (p_sent P)) with 0 by lia. reflexivity. }
  assert (NX : forall c m, pubof c = p -> ~ exc_of x c m).
  { intros c m E K. unfold exc_of in K. rewrite E in K. fold P in K. destruct (p_phase P); try discriminate; auto. }
  assert (NL : forall c, pubof c = p -> lag_of x c = false).
  { intros c E. unfold lag_of. rewrite E. fold P. destruct (p_phase P); try discriminate; auto. }
  set (exc := fun c m => pubof c <> p /\ exc_of x c m).
  assert (I1 : Inv none3 exc none2 (fun c => if pubof c =? p then true else lag_of x c) (next_of x1) x1).
  { split.
    - eapply CInv_setP; [exact CI|exact (proj1 CI p)|..].
      + intros c E. rewrite E, Nat.eqb_refl. pose proof (proj2 CI c) as H. cbn beta in H. rewrite E in H. fold P in H. rewrite (NL c E) in H.
        unfold exc. eapply append_ch with (P := P) (o := o); try reflexivity.
        * apply nb_pos. exact W.
        * unfold nb. rewrite E. exact (proj1 CI p).
        * unfold nb. rewrite E, T. refine (proj1 (available_inv (nbuf cfg p) _ _ (proj1 CI p) _) Av). apply mod_lt, W.
        * intros m [K _]. congruence.
        * eapply ch_inv_ext; [..|exact H]; auto; [tauto|]. intros m K. exfalso. exact (NX c m E K).
      + intros c N. split; [intros m K; split; auto|]. destruct (Nat.eqb_spec (pubof c) p); [contradiction|reflexivity].
    - eapply SInv_next with (next := next_of x); [reflexivity|]. apply SInv_setP; [| |exact SI].
      + intros m v K. now apply nth_app_some.
      + intros s r _ _ _ _ _ K _. eapply hgood_app; [..|exact K]; reflexivity. }
  assert (G' : forall q, q <> p -> pg x1 q (pubs x1 q)) by (intros q N; apply pg_setP_other; auto).
  destruct (find is_local (p_chans P)) as [c|] eqn:Fi.
  - apply find_some in Fi. destruct Fi as [Ic Lc]. destruct (g_chans _ _ _ _ G3 c Ic) as [Ec Bo].
    assert (En : c_next (chs x1 c) = p_nxt P) by (rewrite <- T; apply (G4 c Ic Lc)).
    destruct (put_local_Inv exc _ x1 c (p_nxt P) o I1 Bo Lc En) as (I2 & P2 & C2).
    { rewrite Ec, Xp. exact T1. } { rewrite Ec, Xp. exact O1. } { now rewrite Ec, Nat.eqb_refl. }
    set (x2 := put_local cfg x1 c (p_nxt P) o) in *.
    assert (Ph : forall q, p_phase (pubs x2 q) = p_phase (pubs x q) /\ p_nxt (pubs x2 q) = p_nxt (pubs x q)).
    { intros q. rewrite P2. cbn. unfold upd. destruct (Nat.eqb_spec q p) as [->|]; auto. }
    assert (Q : pubs x2 p = with_bp (append_pub P o) (p_bp (pubs x2 p))) by (rewrite P2, Xp; reflexivity).
    assert (Pc : pchans x2 p (pubs x2 p)).
    { rewrite Q. eapply pchans_ext; [..|exact G3]; auto. intros d K. rewrite (proj1 (C2 d)). exact K. }
    split; [constructor|rewrite Q; reflexivity].
    + destruct I2 as [CI2 SI2]. split; [|exact SI2]. eapply CInv_lag; [|exact CI2]. intros d Up. split.
      * intros m [N K]. split; [exact N|]. unfold exc_of in *. destruct (Ph (pubof d)) as [-> ->]. exact K.
      * pose proof (proj2 CI2 d) as [_ _ _ U]. specialize (U Up). destruct (Nat.eqb_spec (pubof d) p) as [E|N].
        -- pose proof (u_in _ _ _ _ _ _ _ _ _ U) as I. rewrite E, Q in I. cbn in I.
           destruct (Nat.eqb_spec d c) as [->|Nd]; [now rewrite Lc|]. destruct (PubSubModel.is_local cfg d) eqn:Ld; [|reflexivity].
           exfalso. apply Nd. exact (g_local _ _ _ _ G3 d c I Ic Ld Lc).
        -- destruct (Nat.eqb_spec d c) as [->|Nd]; [congruence|]. unfold lag_of. now destruct (Ph (pubof d)) as [-> _].
    + intros q N. rewrite P2. eapply pg_ext with (P := pubs x1 q); [| |reflexivity..|exact (G' q N)].
      * intros d K. rewrite (proj1 (C2 d)). exact K.
      * intros d Id _. rewrite (proj2 (proj2 (C2 d))). destruct (Nat.eqb_spec d c) as [->|]; [|reflexivity].
        exfalso. destruct (g_chans _ _ _ _ (g_pc _ _ _ _ (G' q N)) c Id) as [K _]. congruence.
    + rewrite Q. exact T1.
    + rewrite Q. exact O1.
    + exact Pc.
    + intros d Id Ld. rewrite (proj2 (proj2 (C2 d))). rewrite Q in Id |- *. cbn in Id. assert (d = c) as -> by exact (g_local _ _ _ _ G3 d c Id Ic Ld Lc).
      rewrite Nat.eqb_refl. symmetry. exact T1.
  - assert (NoL : forall d, In d (p_chans P) -> is_local d = false) by (intros d Id; apply (find_none _ _ Fi d Id)).
    split; [constructor|rewrite Xp; reflexivity].
    + destruct I1 as [CI1 SI1]. split; [|exact SI1]. eapply CInv_lag; [|exact CI1]. intros d Up. split.
      * intros m [N K]. split; [exact N|]. now apply exc_of_setP.
      * pose proof (proj2 CI1 d) as [_ _ _ U]. specialize (U Up). destruct (Nat.eqb_spec (pubof d) p) as [E|N].
        -- pose proof (u_in _ _ _ _ _ _ _ _ _ U) as I. rewrite E, Xp in I. now rewrite (NoL d I).
        -- symmetry. now apply lag_of_setP.
    + exact G'.
    + rewrite Xp. exact T1.
    + rewrite Xp. exact O1.
    + rewrite Xp. eapply pchans_ext; [..|exact G3]; auto.
    + intros d Id Ld. rewrite Xp in Id. rewrite (NoL d Id) in Ld. discriminate.
Qed.

Lemma start_Inv x p o grow :
  FInv x -> busy (p_phase (pubs x p)) = 0 -> bp_available (p_bp (pubs x p)) (slot_of cfg p (p_nxt (pubs x p))) = Some true ->
  FInv (start cfg x p o grow).
Proof.
  intros F Hb Av. pose proof (start_premid x p o F Hb Av) as Q. cbn zeta in Q.
  unfold start. cbn zeta. fold (append_pub (pubs x p) o).
  set (x2 := match find is_local (p_chans (pubs x p)) with Some c => put_local cfg (setP x p (append_pub (pubs x p) o)) c (p_nxt (pubs x p)) o | None => setP x p (append_pub (pubs x p) o) end) in *.
  destruct Q as [Q E]. rewrite <- E. destruct (existsb is_shm (non_local (p_chans (pubs x2 p)))) eqn:Ex.
  - destruct grow; [now apply premid_growing|]. destruct (write_slot_mem x2 p o) as [M1 M2]. rewrite <- M2.
    apply next_channel_ok, premid_mid; [now apply premid_write|auto].
  - apply next_channel_ok, premid_mid; [exact Q|]. intros (c & K1 & K2). exfalso.
    assert (existsb is_shm (non_local (p_chans (pubs x2 p))) = true) by (apply existsb_exists; eauto). congruence.
Qed.

Lemma phase_Inv x p P' :
  FInv x -> busy (p_phase (pubs x p)) = 0 -> busy (p_phase P') = 0 ->
  p_sent P' = p_sent (pubs x p) -> p_nxt P' = p_nxt (pubs x p) -> p_bp P' = p_bp (pubs x p) -> p_gen P' = p_gen (pubs x p) ->
  p_mem P' = p_mem (pubs x p) -> p_chans P' = p_chans (pubs x p) -> FInv (setP x p P').
Proof.
  intros [[CI SI] G] B1 B2 E1 E2 E3 E4 E5 E6. set (P := pubs x p) in *. split; [split|].
  - eapply CInv_setP; [exact CI|rewrite E3; exact (proj1 CI p)|..].
    + intros c Ec. pose proof (proj2 CI c) as H. cbn beta in H. rewrite Ec in H. fold P in H.
      replace (lag_of (setP x p P') c) with (lag_of x c).
      2:{ unfold lag_of. cbn [pubs setP]. rewrite Ec, upd_same. fold P. destruct (p_phase P), (p_phase P'); try discriminate; reflexivity. }
      eapply ch_inv_pub with (P := P); auto; rewrite ?E3, ?E5, ?E6; auto.
      eapply ch_inv_ext; [..|exact H]; auto; [tauto|]. intros m K. unfold exc_of in K. rewrite Ec in K. fold P in K. destruct (p_phase P); try discriminate; destruct K.
    + intros c N. split; [intros m; now apply exc_of_setP|symmetry; now apply lag_of_setP].
  - eapply SInv_next; [|apply SInv_setP_keep; [..|exact SI]; auto]. reflexivity. intros. now rewrite E5.
  - intros q. destruct (Nat.eq_dec q p) as [->|N]; [|now apply pg_setP_other; auto].
    cbn. rewrite upd_same. destruct (G p) as [G1 G2 G3 G4 G5]. fold P in G1, G2, G3, G4, G5. constructor.
    + unfold total in *. rewrite E1, E2, B2. lia.
    + destruct (p_phase P'); try discriminate; auto.
    + eapply pchans_ext; [..|exact G3]; auto.
    + intros c. rewrite E6. unfold total. rewrite E1. apply G4.
    + destruct (p_phase P'); try discriminate; auto.
Qed.

Lemma try_send_Inv x p o grow : FInv x -> busy (p_phase (pubs x p)) = 0 -> FInv (try_send cfg x p o grow).
Proof.
  intros F Hb. unfold try_send. cbn zeta.
  destruct (bp_available _ _) as [[|]|] eqn:Av; [now apply start_Inv|apply phase_Inv; auto..].
Qed.

(** Pausing and resuming. *)
Lemma run_Inv x p P' :
  FInv x -> (p_phase P' = p_phase (pubs x p) \/ busy (p_phase (pubs x p)) = 0 /\ busy (p_phase P') = 0) ->
  p_sent P' = p_sent (pubs x p) -> p_nxt P' = p_nxt (pubs x p) -> p_bp P' = p_bp (pubs x p) -> p_gen P' = p_gen (pubs x p) ->
  p_mem P' = p_mem (pubs x p) -> p_chans P' = p_chans (pubs x p) -> FInv (setP x p P').
Proof.
  intros F [Ph|[B1 B2]] E1 E2 E3 E4 E5 E6; [|now apply phase_Inv]. destruct F as [[CI SI] G]. set (P := pubs x p) in *.
  assert (Xc : forall c m, exc_of x c m <-> exc_of (setP x p P') c m).
  { intros c m. unfold exc_of. cbn [pubs setP]. unfold upd. destruct (Nat.eqb_spec (pubof c) p) as [->|]; [|tauto]. fold P. rewrite Ph, E2. tauto. }
  assert (Lg : forall c, lag_of x c = lag_of (setP x p P') c).
  { intros c. unfold lag_of. cbn [pubs setP]. unfold upd. destruct (Nat.eqb_spec (pubof c) p) as [->|]; [|reflexivity]. fold P. now rewrite Ph. }
  split; [split|].
  - eapply CInv_setP; [exact CI|rewrite E3; exact (proj1 CI p)|..].
    + intros c Ec. pose proof (proj2 CI c) as H. cbn beta in H. rewrite Ec in H. fold P in H. rewrite <- Lg.
      eapply ch_inv_pub with (P := P); auto; rewrite ?E3, ?E5, ?E6; auto. eapply ch_inv_ext; [..|exact H]; auto; [tauto|]. intros m. apply Xc.
    + intros c N. split; [intros m; apply Xc|apply Lg].
  - eapply SInv_next; [|apply SInv_setP_keep; [..|exact SI]; auto]. reflexivity. intros. now rewrite E5.
  - intros q. destruct (Nat.eq_dec q p) as [->|N]; [|now apply pg_setP_other; auto].
    cbn. rewrite upd_same. eapply pg_ext; [..|exact (G p)]; auto.
Qed.

(** The rest of the loop: the lease for the channel just written, or the channel is gone. *)
Lemma drained_mid x p o c todo bp' :
  FInv x -> p_phase (pubs x p) = Draining o c todo ->
  (bp' = bp_lease c (slot_of cfg p (p_nxt (pubs x p))) (p_bp (pubs x p)) \/ bp' = p_bp (pubs x p) /\ c_up (chs x c) = false) ->
  mid (setP x p (with_bp (pubs x p) bp')) p o todo.
Proof.
  intros [[CI SI] G] Ph Hbp. set (P := pubs x p) in *.
  destruct (G p) as [G1 G2 G3 G4 G5]. fold P in G1, G2, G3, G4, G5. rewrite Ph in *. cbn in G1.
  destruct G5 as (T1 & T2 & T3 & T4). inversion T1 as [|? ? NI ND]; subst.
  destruct (g_chans _ _ _ _ G3 c (T2 c (or_introl eq_refl))) as [Ec Bo].
  set (y := setP x p (with_bp P bp')). assert (Yp : pubs y p = with_bp P bp') by apply upd_same.
  assert (HB : forall u b, held_in (p_bp P) u b -> held_in bp' u b).
  { intros u b K. destruct Hbp as [->|[-> _]]; [rewrite held_lease; auto|exact K]. }
  constructor; rewrite ?Yp; auto.
  - split.
    + eapply CInv_setP; [exact CI| |..].
      * cbn. destruct Hbp as [->|[-> _]]; [apply bp_lease_inv|]; exact (proj1 CI p).
      * intros d Ed. rewrite Ed, Nat.eqb_refl. pose proof (proj2 CI d) as H. cbn beta in H. rewrite Ed in H. fold P in H.
        assert (L : lag_of x d = mem d todo) by (unfold lag_of; rewrite Ed; fold P; now rewrite Ph). rewrite L in H.
        eapply ch_inv_pub with (P' := with_bp P bp') in H; try reflexivity; auto.
        destruct H as [A B D U]. split; auto. intros Up. specialize (U Up). destruct U. constructor; auto.
        intros m K. destruct (u_owed m K) as [K1 [K2|K2]]; [auto|]. split; [exact K1|left].
        unfold exc_of in K2. rewrite Ed in K2. fold P in K2. rewrite Ph in K2. destruct K2 as [-> ->]. cbn.
        destruct Hbp as [->|[_ Dn]]; [|congruence]. rewrite held_lease. left. unfold nb, slot_of. rewrite Ed.
        rewrite (inv_len (nbuf cfg p) (p_bp P) (proj1 CI p)). repeat split; auto. apply mod_lt, W.
      * intros d N. split; [|].
        -- intros m K. split; [exact N|]. now apply exc_of_setP.
        -- destruct (Nat.eqb_spec (pubof d) p); [contradiction|]. symmetry. now apply lag_of_setP.
    + eapply SInv_next; [|apply SInv_setP_keep; [..|exact SI]; reflexivity]. reflexivity.
  - intros q N. now apply pg_setP_other; auto.
  - change (total (with_bp P bp')) with (total P). cbn. lia.
  - eapply pchans_ext; [..|exact G3]; auto.
  - refine (conj ND (conj _ (conj _ T4))).
    + intros d K. apply T2. now right.
    + intros d K. apply T3. now right.
Qed.
End Steps.
