(** The invariant is preserved by deliveries and broadcasts. *)
From Coq Require Import List ZArith Arith Bool Lia.
From Verif Require Import BackpressureModel BackpressureProofs CacheModel CacheProofs TransportModel PubSubModel PubSubSpec PubSubInv PubSubSub PubSubSteps.
Import ListNotations.

Section Steps.
Context {Obj : Type}.
Variable cfg : config.
Hypothesis W : wf cfg.
Notation st := (st Obj).
Notation pubst := (pubst Obj).
Notation chst := (chst Obj).
Notation sbst := (sbst Obj).
Notation CInv := (CInv cfg).
Notation nb := (nb cfg).
Notation pubof := (pubof cfg).
Notation ch_inv := (ch_inv cfg).
Notation up_inv := (up_inv cfg).
Notation SInv := (SInv cfg).
Notation Inv := (Inv cfg).
Notation pend := (pend cfg).
Notation is_local := (is_local cfg).
Notation is_shm := (is_shm cfg).
Notation FInv := (FInv cfg).
Notation pg := (pg cfg).
Notation exc_of := (exc_of cfg).
Notation lag_of := (lag_of cfg).
Implicit Types x y z : st.
Implicit Types P : pubst.
Implicit Types C : chst.
Implicit Types o : Obj.

Lemma CInv_chg (pd pd' : nat -> nat -> nat -> Prop) (exc exc' exc2 exc2' : nat -> nat -> Prop) (lag lag' : nat -> bool) x y c :
  CInv pd exc exc2 lag x -> (forall p, pubs y p = pubs x p) -> (forall d, d <> c -> chs y d = chs x d) ->
  (forall s d m, d <> c -> (pd s d m <-> pd' s d m)) ->
  (forall d, d <> c -> (forall m, exc d m -> exc' d m) /\ (forall m, exc2 d m -> exc2' d m) /\ lag d = lag' d) ->
  ch_inv (nb c) c (pubs x (pubof c)) (chs y c) (fun s m => pd' s c m) (exc' c) (exc2' c) (lag' c) ->
  CInv pd' exc' exc2' lag' y.
Proof.
  intros [A B] Ep Ec Epd Ex H. split.
  - intros p. rewrite Ep. apply A.
  - intros d. rewrite Ep. destruct (Nat.eq_dec d c) as [->|N]; [exact H|]. rewrite (Ec d N). destruct (Ex d N) as (E1 & E2 & <-).
    eapply ch_inv_ext; [..|apply B]; auto. intros s m. cbn. now apply Epd.
Qed.

Lemma SInv_chg next next' x y c :
  SInv next x -> (forall p, pubs y p = pubs x p) -> (forall d, d <> c -> chs y d = chs x d) -> (forall s, sbs y s = sbs x s) ->
  c_clients (chs y c) = c_clients (chs x c) -> (c_born (chs x c) = true -> c_born (chs y c) = true) -> (c_up (chs y c) = true -> c_up (chs x c) = true) ->
  (forall s d, In s (c_clients (chs x d)) -> next' s d = next s d) -> SInv next' y.
Proof.
  intros (A & B & D) Ep Ec Es E1 E2 E3 En.
  assert (Cl : forall d, c_clients (chs y d) = c_clients (chs x d)).
  { intros d. destruct (Nat.eq_dec d c) as [->|N]; [exact E1|now rewrite Ec]. }
  assert (Bo : forall d, c_born (chs x d) = true -> c_born (chs y d) = true).
  { intros d. destruct (Nat.eq_dec d c) as [->|N]; [exact E2|now rewrite Ec]. }
  assert (Up : forall d, c_up (chs y d) = true -> c_up (chs x d) = true).
  { intros d. destruct (Nat.eq_dec d c) as [->|N]; [exact E3|now rewrite Ec]. }
  split; [|split].
  - intros s. rewrite Es. destruct (A s). constructor; auto.
    + intros p d H. destruct (b_conn p d H) as (K1 & K2 & K3). rewrite Cl. auto.
    + intros p d H. destruct (b_conn p d H) as (_ & K2 & _). rewrite En; auto.
    + intros p m v H. rewrite Ep. auto.
    + intros r H1 H2 H3. rewrite Ep. auto.
  - intros d s H. rewrite Cl in H. rewrite Es. auto.
  - intros d. rewrite Cl. auto.
Qed.

Lemma pg_chg x y c p : pg x p (pubs x p) -> pubs y p = pubs x p -> (forall d, d <> c -> chs y d = chs x d) ->
  (c_born (chs x c) = true -> c_born (chs y c) = true) -> (is_local c = true -> c_next (chs y c) = c_next (chs x c)) -> pg y p (pubs y p).
Proof.
  intros G -> Ec E2 E3. eapply pg_ext; [| |reflexivity..|exact G].
  - intros d. destruct (Nat.eq_dec d c) as [->|N]; [exact E2|now rewrite Ec].
  - intros d _ L. destruct (Nat.eq_dec d c) as [->|N]; [now apply E3|now rewrite Ec].
Qed.

Lemma mem_in_dec s l : mem s l = true \/ (mem s l = false /\ ~ In s l).
Proof. destruct (mem s l) eqn:E; [auto|]. right. split; [reflexivity|]. intros H. apply mem_In in H. congruence. Qed.

(** Nobody holds the slot of [m] when [anyone] is false. *)
Lemma anyone_spec pd exc exc2 lag x c m : CInv pd exc exc2 lag x -> c_up (chs x c) = true ->
  anyone cfg x c m = false -> forall s m', pd s c m' -> m' mod nb c <> m mod nb c.
Proof.
  intros [_ B] Up A s m' H E. destruct (B c) as [B1 _ _ U]. specialize (U Up).
  specialize (B1 (u_born _ _ _ _ _ _ _ _ _ U)). unfold anyone in A. rewrite (slot_nb cfg) in A.
  destruct (bp_available (c_bp (chs x c)) (m mod nb c)) as [[|]|] eqn:Av; try discriminate.
  apply (proj1 (available_inv _ _ _ B1 (mod_lt _ _ (nb_pos cfg W c))) Av s).
  apply (u_lease _ _ _ _ _ _ _ _ _ U). eauto.
Qed.

(** A frame is taken from the connection, cached and announced. *)
Lemma receive_Inv x c C1 f w e :
  FInv x -> c_up (chs x c) = true -> c_up C1 = true -> c_born C1 = true ->
  c_next C1 = c_next (chs x c) -> c_clients C1 = c_clients (chs x c) -> c_re C1 = None -> c_wire C1 = f :: w ->
  ch_inv (nb c) c (pubs x (pubof c)) C1 (fun s m => pend x s c m \/ none3 s c m) (exc_of x c) (none2 c) (lag_of x c) ->
  e_id e = fid f -> hgood (nb c) (pubs x (pubof c)) (fid f) (e_obj e) -> hkind (is_shm c) (e_obj e) ->
  (forall g b, e_obj e = View g b -> g <= c_gen C1) -> frames_ok (nb c) (pubs x (pubof c)) (is_shm c) (c_gen C1) w ->
  FInv (receive cfg (setC x c (with_wire C1 w)) c e).
Proof.
  intros [[CI SI] G] Up Up1 Bo1 En1 Ecl Re1 Wi1 H1 Ee Hg Hk Hgen Fok.
  unfold receive. cbn zeta. set (x' := setC x c (with_wire C1 w)).
  assert (X' : chs x' c = with_wire C1 w) by (unfold x'; cbn; apply upd_same).
  set (m := e_id e).
  set (y := setC x' c (with_cache (bump (chs x' c)) (cache_put (c_cache (chs x' c)) e))).
  assert (Yc : chs y c = with_cache (bump (with_wire C1 w)) (cache_put (c_cache C1) e)).
  { unfold y. cbn [chs setC]. rewrite upd_same, X'. reflexivity. }
  assert (Yd : forall d, d <> c -> chs y d = chs x d).
  { intros d N. unfold y, x'. cbn. rewrite !upd_other by exact N. reflexivity. }
  pose proof H1 as [B1 B2 _ U]. specialize (U Up1). specialize (B1 Bo1). specialize (B2 Bo1).
  pose proof (nb_pos cfg W c) as Hn.
  assert (Em : c_next C1 = m).
  { pose proof (u_ids _ _ _ _ _ _ _ _ _ U) as I. unfold rem in I. rewrite Re1, Wi1 in I. cbn in I. injection I as I _. unfold m. congruence. }
  assert (NL : is_local c = true -> False) by (intros L; destruct (u_loc _ _ _ _ _ _ _ _ _ U L) as (K' & _); congruence).
  assert (Ow : owed C1 m). { left. rewrite Wi1. left. symmetry. exact Ee. }
  assert (Dis : forall k h, cached C1 k h -> k mod nb c <> m mod nb c).
  { intros k h K E. assert (k = m). { eapply (owed_slot cfg _ _ _ _ _ _ _ _ m k Hn U); auto. right; right; left; left; eauto. }
    subst k. assert (has C1 m) by (left; eauto). apply (u_has _ _ _ _ _ _ _ _ _ U) in H. lia. }
  set (k := cache_put (c_cache C1) e) in *.
  assert (Gk : forall i h, cache_get k i = Some h <-> (i = m /\ h = e_obj e) \/ cached C1 i h).
  { intros i h. unfold k. rewrite (get_put (nb c)) by auto. fold m. unfold cached. destruct (Nat.eqb_spec m i) as [<-|N].
    - split; [intros [= <-]; auto|]. intros [[_ ->]|K]; [reflexivity|]. exfalso. exact (Dis _ _ K eq_refl).
    - destruct (Nat.eqb_spec (m mod nb c) (i mod nb c)) as [E|E].
      + split; [discriminate|]. intros [[? _]|K]; [congruence|]. exfalso. exact (Dis _ _ K (eq_sym E)).
      + split; [auto|]. intros [[? _]|K]; [congruence|exact K]. }
  assert (Hy : ch_inv (nb c) c (pubs x (pubof c)) (chs y c) (fun s m => pend x s c m \/ none3 s c m) (exc_of x c) (none2 c) (lag_of x c)).
  { rewrite Yc. split; cbn; auto.
    - intros _. now apply cgood_put.
    - congruence.
    - intros _.
      assert (HasY : forall i, has (with_cache (bump (with_wire C1 w)) k) i <-> i = m \/ has C1 i).
      { intros i. unfold has, rekeys, cached. cbn. rewrite Re1. split.
        - intros [[h K]|[]]. apply Gk in K. destruct K as [[-> _]|K]; [auto|right; left; eauto].
        - intros [->|[[h K]|[]]]; left; [exists (e_obj e); apply Gk; auto|exists h; apply Gk; auto]. }
      destruct U. constructor; cbn; auto.
      + intros s i H. destruct (u_pend s i H) as (K1 & K2 & [K3|K3]); [|destruct K3]. repeat split; auto. left. apply HasY. auto.
      + intros i H. apply HasY in H. destruct H as [->|H].
        * split; [lia|]. intros K. apply u_ackw in K. lia.
        * destruct (u_has i H). split; [lia|auto].
      + destruct u_ackw as [K1 K2]. split; auto. intros i K. specialize (K2 i K). lia.
      + unfold rem in *. cbn. rewrite Re1, Wi1 in *. cbn in u_ids. injection u_ids as _ I. cbn. exact I.
      + unfold rem in *. cbn. rewrite Re1, Wi1 in *. cbn in *. lia.
      + intros i H. apply u_owed. destruct H as [H|[H|[H|H]]].
        * left. rewrite Wi1. right. exact H.
        * unfold rem in H. cbn in H. rewrite Re1 in H. destruct H.
        * apply HasY in H. destruct H as [->|H]; [exact Ow|right; right; left; exact H].
        * right; right; right; exact H.
      + intros i h K. apply Gk in K. destruct K as [[-> ->]|K]; [|auto]. repeat split; auto. unfold m. now rewrite Ee.
      + rewrite Re1. exact Fok.
      + intros L. destruct (u_loc L) as (K & _). congruence. }
  assert (Iy : Inv none3 (exc_of x) none2 (lag_of x) (mids m c (c_clients (chs y c)) (next_of y)) y).
  { split.
    - eapply CInv_chg with (x := x) (c := c); [exact CI|reflexivity|exact Yd|reflexivity| |exact Hy].
      intros d N. auto.
    - eapply SInv_chg with (x := x) (c := c); [exact SI|reflexivity|exact Yd|reflexivity|..].
      + rewrite Yc. cbn. exact Ecl.
      + rewrite Yc. auto.
      + intros _. exact Up.
      + intros s d Hs. unfold mids. rewrite Yc. cbn [c_clients with_cache bump with_wire]. rewrite Ecl. unfold next_of.
        destruct (Nat.eqb_spec d c) as [->|N].
        * destruct (mem_in_dec s (c_clients (chs x c))) as [->|[_ N]]; [|contradiction]. cbn. lia.
        * cbn [andb]. now rewrite Yd. }
  assert (Ny : c_next (chs y c) = S m) by (rewrite Yc; cbn; lia).
  assert (Hasm : has (chs y c) m).
  { rewrite Yc. left. exists (e_obj e). apply Gk. auto. }
  destruct (notify_list_Inv cfg W (exc_of x) none2 (lag_of x) (next_of y) c m (c_clients (chs y c)) y Iy Ny) as [Iz Hz].
  { apply incl_refl. } { apply (proj2 (proj2 (proj2 Iy))). } { intros s _. exact Ny. }
  { intros _. split; [|auto]. unfold y, x'. cbn [pubs setC]. apply (u_owed _ _ _ _ _ _ _ _ _ U m Ow). }
  specialize (Hz Hasm). change (fold_left (notify1 cfg c m) (c_clients (chs y c)) y) with (notify cfg y c m) in *.
  set (z := notify cfg y c m) in *.
  pose proof (core_notify_list cfg c m (c_clients (chs y c)) y) as Kz. fold (notify cfg y c m) in Kz. fold z in Kz.
  assert (Upz : c_up (chs z c) = true) by (rewrite (k_up _ _ Kz), Yc; exact Up1).
  assert (Gz : forall p, pg z p (pubs z p)).
  { intros p. apply (pg_core cfg y); [exact Kz|]. apply (pg_chg x y c); auto.
    - rewrite Yc. auto.
    - intros L. destruct (u_loc _ _ _ _ _ _ _ _ _ U L) as (K & _). congruence. }
  assert (Exz : forall c' m', exc_of x c' m' -> exc_of z c' m').
  { intros c' m' H. apply (exc_core cfg y z c' m' Kz). exact H. }
  assert (Lgz : forall c', lag_of x c' = lag_of z c').
  { intros c'. rewrite (lag_core cfg y z c' Kz). reflexivity. }
  assert (Nxz : forall s d, next_of y s d = next_of z s d).
  { intros s d. unfold next_of. now rewrite (k_next _ _ Kz). }
  assert (Fz : FInv z).
  { split; [split|exact Gz].
    - eapply CInv_lag; [|exact (proj1 Iz)]. intros c' _. split; auto.
    - eapply SInv_next; [|exact (proj2 Iz)]. intros s d _. apply Nxz. }
  destruct (anyone cfg z c m) eqn:An; [exact Fz|].
  (* nobody listens *)
  set (v := setC z c (with_ackw (with_cache (chs z c) (fst (cache_release (c_cache (chs z c)) m))) (c_ackw (chs z c) ++ [m]))).
  assert (Vc : chs v c = with_ackw (with_cache (chs z c) (fst (cache_release (c_cache (chs z c)) m))) (c_ackw (chs z c) ++ [m])) by apply upd_same.
  assert (Vd : forall d, d <> c -> chs v d = chs z d) by (intros d N; apply upd_other; exact N).
  destruct Fz as [[CIz SIz] _].
  pose proof (anyone_spec _ _ _ _ z c m CIz Upz An) as NP.
  destruct CIz as [CIz1 CIz2]. pose proof (CIz2 c) as Hzc. destruct Hzc as [D1 D2 _ Uz]. specialize (Uz Upz).
  pose proof (u_born _ _ _ _ _ _ _ _ _ Uz) as Boz. specialize (D1 Boz). specialize (D2 Boz).
  assert (Rez : c_re (chs z c) = None) by (rewrite (k_re _ _ Kz), Yc; exact Re1).
  assert (Gv : forall i h, cache_get (fst (cache_release (c_cache (chs z c)) m)) i = Some h <-> i <> m /\ cached (chs z c) i h).
  { intros i h. rewrite (get_release (nb c)) by auto. unfold cached. destruct (Nat.eqb_spec m i) as [<-|N].
    - split; [discriminate|tauto].
    - split; [auto|tauto]. }
  assert (HasV : forall i, has (chs v c) i <-> i <> m /\ has (chs z c) i).
  { intros i. rewrite Vc. unfold has, rekeys, cached. cbn. rewrite Rez. split.
    - intros [[h K]|[]]. apply Gv in K. destruct K as [N K]. split; [exact N|left; exists h; exact K].
    - intros (N & [[h K]|[]]). left. exists h. apply Gv. auto. }
  assert (Hv : ch_inv (nb c) c (pubs z (pubof c)) (chs v c) (fun s m => pend z s c m \/ none3 s c m) (exc_of z c) (none2 c) (lag_of z c)).
  { pose proof (u_has _ _ _ _ _ _ _ _ _ Uz m Hz) as [M1 M2].
    assert (Owz : owed (chs z c) m) by (right; right; left; exact Hz).
    split.
    - intros _. rewrite Vc. exact D1.
    - intros _. rewrite Vc. cbn. now apply cgood_release.
    - rewrite Vc. cbn. congruence.
    - intros _. destruct Uz. rewrite Vc in HasV |- *. constructor; cbn; auto.
      + intros s i H. destruct (u_pend s i H) as (K1 & K2 & [K3|K3]); [|destruct K3]. repeat split; auto. left. apply HasV. split; [|exact K3].
        intros ->. exact (NP s m H eq_refl).
      + intros i H. apply HasV in H. destruct H as [N H]. destruct (u_has i H) as [K1 K2]. split; auto.
        rewrite in_app_iff. intros [K|[K|[]]]; [auto|congruence].
      + destruct u_ackw as [K1 K2]. split; [now apply NoDup_snoc|]. intros i H. apply in_app_or in H. destruct H as [H|[<-|[]]]; auto.
      + intros i H. apply u_owed. destruct H as [H|[H|[H|H]]].
        * left; exact H.
        * right; left; exact H.
        * apply HasV in H. right; right; left; tauto.
        * cbn in H. apply in_app_or in H. destruct H as [H|[<-|[]]]; [right; right; right; exact H|exact Owz].
      + intros i h K. apply Gv in K. apply u_handles. tauto.
      + intros L. destruct (NL L). }
  split; [split|].
  - eapply CInv_chg with (x := z) (c := c); [exact (conj CIz1 CIz2)|reflexivity|exact Vd|reflexivity| |exact Hv].
    intros d N. auto.
  - eapply SInv_chg with (x := z) (c := c); [exact SIz|reflexivity|exact Vd|reflexivity|..].
    + now rewrite Vc.
    + now rewrite Vc.
    + now rewrite Vc.
    + intros s d _. unfold next_of. destruct (Nat.eq_dec d c) as [->|N]; [now rewrite Vc|now rewrite Vd].
  - intros p. apply (pg_chg z v c); auto; rewrite Vc; auto.
Qed.
End Steps.
