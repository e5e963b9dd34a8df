(** The invariant of the publish/subscribe system, channel layer: what publishers and channels agree on. *)
From Coq Require Import List ZArith Arith Bool Lia.
From Verif Require Import BackpressureModel BackpressureProofs CacheModel CacheProofs TransportModel PubSubModel PubSubSpec.
Import ListNotations.

(** Cache facts in terms of [cache_get]. *)
Section CacheFacts.
Context {A : Type}.
Record cgood (n : nat) (c : cache A) : Prop := { cg_len : length (slots c) = n; cg_placed : placed n c }.

Lemma cgood_new n : 0 < n -> cgood n (cache_new n).
Proof. intros H. split; [apply repeat_length|]. exact (run_placed n [] H). Qed.

Lemma get_new n m : 0 < n -> cache_get (@cache_new A n) m = None.
Proof. intros H. exact (lookup_expected n [] m H). Qed.

Lemma put_is_step (c : cache A) e : cache_put c e = cache_step c (Put (e_id e) (e_obj e) (e_mem e)).
Proof. destruct e; reflexivity. Qed.

Lemma cgood_put n c e : 0 < n -> cgood n c -> cgood n (cache_put c e).
Proof. intros H [L P]. rewrite put_is_step. split; [now rewrite step_length|now apply step_placed]. Qed.

Lemma get_put n (c : cache A) e m : 0 < n -> cgood n c -> cache_get (cache_put c e) m =
  if Nat.eqb (e_id e) m then Some (e_obj e) else if Nat.eqb (e_id e mod n) (m mod n) then None else cache_get c m.
Proof. intros H [L P]. rewrite put_is_step. now rewrite (step_get n). Qed.

Lemma cgood_release n c m : 0 < n -> cgood n c -> cgood n (fst (@cache_release A c m)).
Proof.
  intros H [L P]. change (cgood n (cache_step c (Release m))). split; [now rewrite step_length|now apply step_placed].
Qed.

Lemma get_release n (c : cache A) k m : 0 < n -> cgood n c ->
  cache_get (fst (cache_release c k)) m = if Nat.eqb k m then None else cache_get c m.
Proof. intros H [L P]. change (cache_get (cache_step c (Release k)) m = if Nat.eqb k m then None else cache_get c m). now rewrite (step_get n). Qed.

Lemma release_ok n (c : cache A) m : cgood n c -> snd (cache_release c m) = match cache_get c m with Some _ => true | None => false end.
Proof.
  intros [L P]. unfold cache_release, cache_get. destruct (slot c (buf_idx c m)) as [e|]; [|reflexivity].
  destruct (e_id e =? m); reflexivity.
Qed.

Lemma release_miss (c : cache A) m : cache_get c m = None -> cache_release c m = (c, false).
Proof.
  unfold cache_release, cache_get. destruct (slot c (buf_idx c m)) as [e|]; [|reflexivity].
  destruct (e_id e =? m); [discriminate|reflexivity].
Qed.

Lemma cgood_clear n (c : cache A) : 0 < n -> cgood n c -> cgood n (cache_clear c).
Proof. intros H [L P]. change (cgood n (cache_step c Clear)). split; [now rewrite step_length|now apply step_placed]. Qed.

Lemma get_clear n (c : cache A) m : 0 < n -> cgood n c -> cache_get (cache_clear c) m = None.
Proof. intros H [L P]. change (cache_get (cache_step c Clear) m = None). now rewrite (step_get n). Qed.

Lemma keys_get n (c : cache A) m : cgood n c -> (In m (cache_keys c) <-> exists h, cache_get c m = Some h).
Proof.
  intros [L P]. rewrite in_keys. split.
  - intros (i & e & E & <-). exists (e_obj e). rewrite (get_slot n) by exact L.
    rewrite (P _ _ E). rewrite E, Nat.eqb_refl. reflexivity.
  - intros [h E]. rewrite (get_slot n) in E by exact L. destruct (slot c (m mod n)) as [e|] eqn:S; [|discriminate].
    destruct (Nat.eqb_spec (e_id e) m); [|discriminate]. eauto.
Qed.
End CacheFacts.

Lemma available_inv n b i : bp_inv n b -> i < n -> (bp_available b i = Some true <-> forall u, ~ held_in b u i).
Proof.
  intros I Hi. destruct (empty_iff n b i I Hi) as (l & E & H). unfold bp_available. rewrite E.
  split; [intros [= Q]; now apply H|]. intros Q. f_equal. now apply H.
Qed.

Lemma window_mod n a b : 0 < n -> a mod n = b mod n -> a <= b < a + n -> a = b.
Proof.
  intros Hn E H. pose proof (Nat.div_mod a n). pose proof (Nat.div_mod b n).
  pose proof (Nat.mod_upper_bound a n). pose proof (Nat.mod_upper_bound b n).
  assert (a / n = b / n) by nia. nia.
Qed.

Section Inv.
Context {Obj : Type}.
Variable cfg : config.
Hypothesis W : wf cfg.
Notation st := (st Obj).
Notation pubst := (pubst Obj).
Notation chst := (chst Obj).
Notation handle := (handle Obj).

Definition total (P : pubst) : nat := length (p_sent P).

(** Message [m] is in its slot of every segment from [g] to the current one. *)
Definition good (n : nat) (P : pubst) (m g : nat) : Prop :=
  exists o, nth_error (p_sent P) m = Some o /\ forall g', g <= g' <= p_gen P -> p_mem P g' (m mod n) = Some (m, o).

Definition hgood (n : nat) (P : pubst) (m : nat) (h : handle) : Prop :=
  match h with
  | Val o => nth_error (p_sent P) m = Some o
  | View g b => b = m mod n /\ g <= p_gen P /\ good n P m g
  end.

(** Shared-memory channels hold views, the others objects of their own. *)
Definition hkind (shm : bool) (h : handle) : Prop := match h with View _ _ => shm = true | Val _ => shm = false end.

Definition cached (C : chst) (m : nat) (h : handle) : Prop := cache_get (c_cache C) m = Some h.
Definition rekeys (C : chst) : list nat := match c_re C with Some (k, _, _) => k | None => [] end.
Definition rem (C : chst) : list nat := match c_re C with Some (_, m, _) => [m] | None => [] end.
(** The channel has the message (or will re-read it from the new segment). *)
Definition has (C : chst) (m : nat) : Prop := (exists h, cached C m h) \/ In m (rekeys C).
(** The channel still owes the publisher an answer for [m]. *)
Definition owed (C : chst) (m : nat) : Prop := In m (map fid (c_wire C)) \/ In m (rem C) \/ has C m \/ In m (c_ackw C).

Fixpoint frames_ok (n : nat) (P : pubst) (shm : bool) (glo : nat) (w : list (frame Obj)) : Prop :=
  match w with
  | [] => True
  | FTcp m o :: w' => shm = false /\ nth_error (p_sent P) m = Some o /\ frames_ok n P shm glo w'
  | FShm m g :: w' => shm = true /\ glo <= g <= p_gen P /\ good n P m g /\ frames_ok n P shm g w'
  end.

Record up_inv (n c : nat) (P : pubst) (C : chst) (pend : nat -> nat -> Prop) (exc exc2 : nat -> Prop) (lag : bool) : Prop := {
  u_born : c_born C = true;
  u_in : In c (p_chans P);
  u_lease : forall s b, held_in (c_bp C) s b <-> exists m, pend s m /\ m mod n = b;
  u_pend : forall s m, pend s m -> m < c_next C /\ total P <= m + n /\ (has C m \/ exc2 m);
  u_has : forall m, has C m -> m < c_next C /\ ~ In m (c_ackw C);
  u_ackw : NoDup (c_ackw C) /\ forall m, In m (c_ackw C) -> m < c_next C;
  u_ids : rem C ++ map fid (c_wire C) = seq (c_next C) (length (rem C ++ map fid (c_wire C)));
  u_sent : c_next C + length (rem C ++ map fid (c_wire C)) + (if lag then 1 else 0) = total P;
  u_owed : forall m, owed C m -> total P <= m + n /\ (held_in (p_bp P) c (m mod n) \/ exc m);
  u_handles : forall m h, cached C m h -> hgood n P m h /\ hkind (is_shm cfg c) h /\ (forall g b, h = View g b -> g <= c_gen C);
  u_frames : match c_re C with
             | None => frames_ok n P (is_shm cfg c) (c_gen C) (c_wire C)
             | Some (keys, m, g) => is_shm cfg c = true /\ c_gen C <= g <= p_gen P /\ good n P m g /\
                                    (forall k, In k keys -> good n P k g) /\ frames_ok n P (is_shm cfg c) g (c_wire C)
             end;
  u_re : c_re C = None \/ forall m, cache_get (c_cache C) m = None;
  u_loc : is_local cfg c = true -> c_wire C = [] /\ c_re C = None /\ c_ackw C = [];
  u_gen : c_gen C <= p_gen P }.

Record ch_inv (n c : nat) (P : pubst) (C : chst) (pend : nat -> nat -> Prop) (exc exc2 : nat -> Prop) (lag : bool) : Prop := {
  h_bp : c_born C = true -> bp_inv n (c_bp C);
  h_cg : c_born C = true -> cgood n (c_cache C);
  h_down : c_up C = false -> forall m h, cached C m h -> exists o, h = Val o /\ nth_error (p_sent P) m = Some o;
  h_up : c_up C = true -> up_inv n c P C pend exc exc2 lag }.

Definition nb (c : nat) : nat := nbuf cfg (pubof cfg c).
Lemma nb_pos c : 0 < nb c. Proof. apply (wf_nbuf cfg W). Qed.

Definition CInv (pend : nat -> nat -> nat -> Prop) (exc exc2 : nat -> nat -> Prop) (lag : nat -> bool) (x : st) : Prop :=
  (forall p, bp_inv (nbuf cfg p) (p_bp (pubs x p))) /\
  forall c, ch_inv (nb c) c (pubs x (pubof cfg c)) (chs x c) (fun s m => pend s c m) (exc c) (exc2 c) (lag c).

(** What a channel needs of a changed publisher record. *)
Lemma good_keep n P P' m g :
  p_sent P' = p_sent P -> p_gen P' = p_gen P -> (forall g' b, p_mem P' g' b = p_mem P g' b) -> good n P m g -> good n P' m g.
Proof. intros E1 E2 E3 (o & A & B). exists o. rewrite E1, E2. split; [exact A|]. intros g' H. rewrite E3. auto. Qed.

Lemma hgood_keep n P P' m h :
  p_sent P' = p_sent P -> p_gen P' = p_gen P -> (forall g' b, p_mem P' g' b = p_mem P g' b) -> hgood n P m h -> hgood n P' m h.
Proof.
  intros E1 E2 E3. destruct h as [o|g b]; cbn; [now rewrite E1|]. intros (A & B & C). rewrite E2. eauto using good_keep.
Qed.

Lemma frames_keep n P P' shm w : forall glo,
  p_sent P' = p_sent P -> p_gen P' = p_gen P -> (forall g' b, p_mem P' g' b = p_mem P g' b) ->
  frames_ok n P shm glo w -> frames_ok n P' shm glo w.
Proof.
  induction w as [|[m g|m o] w IH]; intros glo E1 E2 E3; cbn; [trivial| |].
  - intros (A & B & C & D). rewrite E2. repeat split; try lia; eauto using good_keep.
  - intros (A & B & C). rewrite E1. auto.
Qed.

Lemma ch_inv_pub n c P P' C pend exc exc2 lag :
  p_sent P' = p_sent P -> p_gen P' = p_gen P -> (forall g' b, p_mem P' g' b = p_mem P g' b) ->
  (In c (p_chans P) -> In c (p_chans P')) ->
  (forall b, held_in (p_bp P) c b -> held_in (p_bp P') c b) ->
  ch_inv n c P C pend exc exc2 lag -> ch_inv n c P' C pend exc exc2 lag.
Proof.
  intros E1 E2 E3 E4 E5 [A B D U]. split; auto.
  - intros Q m h K. rewrite E1. auto.
  - intros Q. specialize (U Q). destruct U. unfold total in *.
    constructor; unfold total; rewrite ?E1, ?E2; auto.
    + intros m Hm. destruct (u_owed0 m Hm) as [K1 [K2|K2]]; auto.
    + intros m h K. destruct (u_handles0 m h K). split; auto. eapply hgood_keep; eauto.
    + destruct (c_re C) as [[[keys m] g]|]; [|eapply frames_keep; eauto].
      destruct u_frames0 as (K1 & K2 & K3 & K4 & K5). repeat split; try lia; eauto using good_keep, frames_keep.
Qed.

Lemma ch_inv_ext n c P C (pend pend' : nat -> nat -> Prop) (exc exc' exc2 exc2' : nat -> Prop) lag :
  (forall s m, pend s m <-> pend' s m) -> (forall m, exc m -> exc' m) -> (forall m, exc2 m -> exc2' m) ->
  ch_inv n c P C pend exc exc2 lag -> ch_inv n c P C pend' exc' exc2' lag.
Proof.
  intros E1 E2 E3 [A B D U]. split; auto. intros Q. destruct (U Q). constructor; auto.
  - intros s b. rewrite u_lease0. split; intros (m & H1 & H2); exists m; split; auto; now apply E1.
  - intros s m H. apply E1 in H. destruct (u_pend0 _ _ H) as (K1 & K2 & [K3|K3]); auto.
  - intros m H. destruct (u_owed0 m H) as (K1 & [K2|K2]); auto.
Qed.

(** One subscriber's release. *)
Lemma upd_same {A} f k (v : A) : upd f k v k = v.
Proof. unfold upd. now rewrite Nat.eqb_refl. Qed.
Lemma upd_other {A} f k (v : A) j : j <> k -> upd f k v j = f j.
Proof. intros H. unfold upd. destruct (Nat.eqb_spec j k); [contradiction|reflexivity]. Qed.

Lemma release_sbs (x : st) c m s : sbs (release cfg x c m s) = sbs x.
Proof.
  unfold release. cbn zeta. destruct (bp_available _ _) as [[|]|]; try reflexivity.
  destruct (cache_release _ _) as [k [|]]; [|reflexivity]. destruct (own cfg c); reflexivity.
Qed.

(** The channel record and the publisher lease table after a release. *)
Definition rel_chan (C : chst) (own : bool) (b m s : nat) : chst :=
  let C := with_cbp C (bp_free s (Some b) (c_bp C)) in
  match bp_available (c_bp C) b with
  | Some true => match cache_release (c_cache C) m with
                 | (k, true) => if own then with_cache C k else with_ackw (with_cache C k) (c_ackw C ++ [m])
                 | (_, false) => C
                 end
  | _ => C
  end.
Definition rel_pub (P : pubst) (C : chst) (own : bool) (c b m s : nat) : pubst :=
  let C := with_cbp C (bp_free s (Some b) (c_bp C)) in
  match bp_available (c_bp C) b with
  | Some true => match cache_release (c_cache C) m with
                 | (k, true) => if own then with_bp P (bp_free c (Some b) (p_bp P)) else P
                 | (_, false) => P
                 end
  | _ => P
  end.

Lemma release_chs (x : st) c m s d :
  chs (release cfg x c m s) d = if d =? c then rel_chan (chs x c) (own cfg c) (slot_of cfg (pubof cfg c) m) m s else chs x d.
Proof.
  unfold release, rel_chan. cbn zeta. unfold setC, setP, upd. cbn [chs pubs sbs].
  destruct (bp_available _ _) as [[|]|]; cbn; try (destruct (d =? c); reflexivity).
  destruct (cache_release _ _) as [k [|]]; cbn; [|destruct (d =? c); reflexivity].
  destruct (own cfg c); cbn; destruct (d =? c); reflexivity.
Qed.

Lemma release_pubs (x : st) c m s q :
  pubs (release cfg x c m s) q =
  if q =? pubof cfg c then rel_pub (pubs x (pubof cfg c)) (chs x c) (own cfg c) c (slot_of cfg (pubof cfg c) m) m s else pubs x q.
Proof.
  unfold release, rel_pub. cbn zeta. unfold setC, setP, upd. cbn [chs pubs sbs c_bp c_cache with_cbp].
  destruct (Nat.eqb_spec q (pubof cfg c)) as [->|Hq];
  destruct (bp_available _ _) as [[|]|]; cbn; try reflexivity;
  (destruct (cache_release _ _) as [k [|]]; cbn; [|reflexivity]);
  (destruct (own cfg c); cbn; [|reflexivity]); rewrite ?Nat.eqb_refl; try reflexivity;
  destruct (Nat.eqb_spec q (pubof cfg c)); try contradiction; reflexivity.
Qed.

Lemma rel_pub_bp P C o c b m s :
  rel_pub P C o c b m s = P \/ rel_pub P C o c b m s = with_bp P (bp_free c (Some b) (p_bp P)).
Proof.
  unfold rel_pub. cbn zeta. destruct (bp_available _ _) as [[|]|]; auto.
  destruct (cache_release _ _) as [k [|]]; auto. destruct o; auto.
Qed.

Lemma mod_lt n m : 0 < n -> m mod n < n.
Proof. intros H. apply Nat.mod_upper_bound. lia. Qed.

Lemma owed_lt n c P C pend exc exc2 lag m : up_inv n c P C pend exc exc2 lag -> owed C m -> m < total P.
Proof.
  intros U H. pose proof (u_sent _ _ _ _ _ _ _ _ U) as S. pose proof (u_ids _ _ _ _ _ _ _ _ U) as I.
  assert (Q : In m (rem C ++ map fid (c_wire C)) -> m < total P).
  { intros Q. rewrite I in Q. apply in_seq in Q. lia. }
  destruct H as [H|[H|[H|H]]].
  - apply Q, in_or_app; auto.
  - apply Q, in_or_app; auto.
  - apply (u_has _ _ _ _ _ _ _ _ U) in H. lia.
  - apply (u_ackw _ _ _ _ _ _ _ _ U) in H. lia.
Qed.

Lemma owed_slot n c P C pend exc exc2 lag m m' : 0 < n -> up_inv n c P C pend exc exc2 lag -> owed C m -> owed C m' ->
  m' mod n = m mod n -> m' = m.
Proof.
  intros Hn U H H' E. pose proof (owed_lt _ _ _ _ _ _ _ _ _ U H). pose proof (owed_lt _ _ _ _ _ _ _ _ _ U H').
  destruct (u_owed _ _ _ _ _ _ _ _ U m H) as [? _]. destruct (u_owed _ _ _ _ _ _ _ _ U m' H') as [? _].
  destruct (le_lt_dec m m'); [symmetry|]; apply (window_mod n); auto; lia.
Qed.

Lemma pend_slot n c P C pend exc exc2 lag s s' m m' : 0 < n -> up_inv n c P C pend exc exc2 lag -> pend s m -> pend s' m' ->
  m' mod n = m mod n -> m' = m.
Proof.
  intros Hn U H H' E. destruct (u_pend _ _ _ _ _ _ _ _ U _ _ H) as (? & ? & _). destruct (u_pend _ _ _ _ _ _ _ _ U _ _ H') as (? & ? & _).
  pose proof (u_sent _ _ _ _ _ _ _ _ U). destruct (le_lt_dec m m'); [symmetry|]; apply (window_mod n); auto; lia.
Qed.

Lemma NoDup_snoc {A} (l : list A) a : NoDup l -> ~ In a l -> NoDup (l ++ [a]).
Proof.
  intros N H. induction N as [|y l Hy N IH]; cbn; [constructor; [auto|constructor]|].
  constructor; [|apply IH; intros K; apply H; right; exact K].
  intros K. apply in_app_or in K. destruct K as [K|[K|K]]; [contradiction| |destruct K]. subst. apply H. now left.
Qed.

Lemma rel_ch_inv n c P C (pend : nat -> nat -> Prop) (exc exc2 : nat -> Prop) lag (o : bool) m s :
  0 < n -> (is_local cfg c = true -> o = true) ->
  (c_up C = true -> forall m', pend s m' -> m' mod n = m mod n -> m' = m) ->
  ch_inv n c P C pend exc exc2 lag ->
  ch_inv n c (rel_pub P C o c (m mod n) m s) (rel_chan C o (m mod n) m s)
    (fun s' m' => pend s' m' /\ ~ (s' = s /\ m' = m)) exc exc2 lag.
Proof.
  intros Hn Hown Huniq [A B D U].
  set (bp' := bp_free s (Some (m mod n)) (c_bp C)).
  assert (RC : rel_chan C o (m mod n) m s =
    match bp_available bp' (m mod n) with
    | Some true => match cache_release (c_cache C) m with
                   | (k, true) => if o then with_cache (with_cbp C bp') k else with_ackw (with_cache (with_cbp C bp') k) (c_ackw C ++ [m])
                   | (_, false) => with_cbp C bp' end
    | _ => with_cbp C bp' end) by reflexivity.
  assert (RP : rel_pub P C o c (m mod n) m s =
    match bp_available bp' (m mod n) with
    | Some true => match cache_release (c_cache C) m with
                   | (k, true) => if o then with_bp P (bp_free c (Some (m mod n)) (p_bp P)) else P
                   | (_, false) => P end
    | _ => P end) by reflexivity.
  assert (Plain : ch_inv n c P (with_cbp C bp') (fun s' m' => pend s' m' /\ ~ (s' = s /\ m' = m)) exc exc2 lag).
  { split; cbn; auto.
    - intros Q. now apply bp_free_inv, A.
    - intros Q. specialize (Huniq Q). destruct (U Q). constructor; cbn; auto.
      + intros s' b. unfold bp'. rewrite held_free, u_lease0. split.
        * intros (N & m' & H1 & H2). exists m'. repeat split; auto. intros [-> ->]. apply N. auto.
        * intros (m' & (H1 & N) & H2). split; [|eauto]. intros [-> ->]. apply N. split; auto.
      + intros s' m' [H _]. exact (u_pend0 _ _ H). }
  rewrite RC, RP. destruct (bp_available bp' (m mod n)) as [[|]|] eqn:Av; try exact Plain.
  destruct (cache_release (c_cache C) m) as [k [|]] eqn:R; [|exact Plain].
  destruct (c_born C) eqn:Born.
  2:{ (* not born: nothing to show but the down part *)
    assert (Up : c_up C = false). { destruct (c_up C) eqn:Q; [|reflexivity]. destruct (U eq_refl). congruence. }
    split; try (destruct o; cbn; congruence).
    intros _ m' h K.
    assert (K' : cached C m' h).
    { unfold cached in *. assert (E : c_cache (if o then with_cache (with_cbp C bp') k else with_ackw (with_cache (with_cbp C bp') k) (c_ackw C ++ [m])) = k) by (destruct o; reflexivity).
      rewrite E in K. clear E. revert R K. unfold cache_release, cache_get.
      destruct (slot (c_cache C) (buf_idx (c_cache C) m)) as [e|] eqn:Se; [|congruence].
      destruct (Nat.eqb_spec (e_id e) m); [|congruence]. intros [= <-].
      assert (L : buf_idx (release_slot (c_cache C) (buf_idx (c_cache C) m)) m' = buf_idx (c_cache C) m') by (unfold buf_idx; now rewrite release_slot_length).
      rewrite L, slot_release_slot. destruct (buf_idx (c_cache C) m =? buf_idx (c_cache C) m'); [discriminate|auto]. }
    destruct (D Up m' h K') as (o' & ? & ?). exists o'. split; auto. destruct o; auto. }
  specialize (A eq_refl). specialize (B eq_refl).
  pose proof (get_release n (c_cache C) m) as GR. rewrite R in GR. cbn [fst] in GR.
  pose proof (cgood_release n (c_cache C) m Hn B) as CG. rewrite R in CG. cbn [fst] in CG.
  pose proof (release_ok n (c_cache C) m B) as RO. rewrite R in RO. cbn [snd] in RO.
  destruct (cache_get (c_cache C) m) as [h0|] eqn:G0; [|discriminate]. clear RO.
  assert (Hk : forall m' h, cache_get k m' = Some h <-> m' <> m /\ cached C m' h).
  { intros m' h. rewrite GR by auto. unfold cached. destruct (Nat.eqb_spec m m'); split; try discriminate; try tauto.
    - intros [? ?]. congruence.
    - intros ?. split; auto. }
  assert (Nopend : c_up C = true -> forall s' m', pend s' m' /\ ~ (s' = s /\ m' = m) -> m' mod n <> m mod n).
  { intros Q s' m' H E. destruct Plain as [A' _ _ U']. specialize (U' Q).
    assert (Av' := proj1 (available_inv n bp' (m mod n) (A' Born) (mod_lt n m Hn)) Av).
    apply (Av' s'). apply (u_lease _ _ _ _ _ _ _ _ U'). eauto. }
  split.
  - intros _. destruct o; cbn; now apply bp_free_inv.
  - intros _. destruct o; cbn; exact CG.
  - intros Q m' h K. assert (K' : cached C m' h) by (destruct o; apply Hk in K; tauto).
    destruct o; cbn in *; auto.
  - intros Q. assert (Up : c_up C = true) by (destruct o; exact Q).
    destruct Plain as [_ _ _ U']. specialize (U' Up). specialize (U Up). specialize (Nopend Up).
    assert (Hhas : has C m) by (left; eauto).
    assert (Howed : owed C m) by (right; right; left; exact Hhas).
    pose proof (fun m' => owed_slot n c P C pend exc exc2 lag m m' Hn U Howed) as Slot.
    destruct U'. cbn in *.
    assert (Re : c_re C = None) by (destruct u_re0 as [E|E]; [exact E|rewrite E in G0; discriminate]).
    assert (HasNew : forall C', c_cache C' = k -> c_re C' = c_re C -> forall m', has C' m' -> has C m' /\ m' <> m).
    { intros C' E1 E2 m' [[h K]|K]; [unfold cached in K; rewrite E1 in K; apply Hk in K; split; [left; exists h|]; tauto|].
      unfold rekeys in K. rewrite E2, Re in K. destruct K. }
    assert (HasOld : forall C', c_cache C' = k -> c_re C' = c_re C -> forall m', has C m' -> m' <> m -> has C' m').
    { intros C' E1 E2 m' [[h K]|K] Ne; [left; exists h; unfold cached; rewrite E1; apply Hk; auto|].
      right. unfold rekeys in *. now rewrite E2. }
    destruct (u_has0 m Hhas) as [Hm1 Hm2].
    assert (Wire : forall m', In m' (map fid (c_wire C)) -> m' <> m).
    { intros m' H ->. assert (K : In m (rem C ++ map fid (c_wire C))) by (apply in_or_app; auto).
      unfold rem in K, u_ids0. cbn in *. unfold rem in u_ids0. cbn in u_ids0. rewrite u_ids0 in K. apply in_seq in K. lia. }
    destruct o.
    + (* own: the publisher's lease is freed directly *)
      constructor; cbn; auto.
      * intros s' m' H. destruct (u_pend0 s' m' H) as (K1 & K2 & [K3|K3]); repeat split; auto.
        left. apply HasOld; auto. intros ->. exact (Nopend _ _ H eq_refl).
      * intros m' H. apply u_has0. apply (HasNew (with_cache (with_cbp C bp') k)) in H; tauto.
      * intros m' H.
        assert (Ho : owed C m' /\ m' <> m).
        { destruct H as [H|[H|[H|H]]].
          - split; [left; exact H|auto].
          - unfold rem in H. cbn in H. rewrite Re in H. destruct H.
          - apply (HasNew (with_cache (with_cbp C bp') k)) in H; auto. split; [right; right; left|]; tauto.
          - split; [right; right; right; exact H|]. intros ->. contradiction. }
        destruct Ho as [Ho Ne]. destruct (u_owed0 m' Ho) as [K1 K2]. split; [exact K1|]. destruct K2 as [K2|K2]; [left|auto].
        rewrite held_free. split; [|exact K2]. intros [_ E]. apply Ne, Slot; auto.
      * intros m' h K. apply Hk in K. destruct (u_handles0 m' h) as [K1 K2]; [tauto|]. split; [|exact K2].
        eapply hgood_keep; [..|exact K1]; reflexivity.
      * rewrite Re in *. eapply frames_keep; [..|exact u_frames0]; reflexivity.
    + (* an acknowledgement is written *)
      constructor; cbn; auto.
      * intros s' m' H. destruct (u_pend0 s' m' H) as (K1 & K2 & [K3|K3]); repeat split; auto.
        left. apply HasOld; auto. intros ->. exact (Nopend _ _ H eq_refl).
      * intros m' H. apply (HasNew (with_ackw (with_cache (with_cbp C bp') k) (c_ackw C ++ [m]))) in H; auto.
        destruct H as [H Ne]. destruct (u_has0 m' H) as [K1 K2]. split; auto.
        rewrite in_app_iff. intros [K|[K|[]]]; congruence.
      * destruct u_ackw0 as [N L]. split; [now apply NoDup_snoc|].
        intros m' H. apply in_app_or in H. destruct H as [H|[<-|[]]]; auto.
      * intros m' H. apply u_owed0.
        destruct H as [H|[H|[H|H]]].
        -- left; exact H.
        -- right; left; exact H.
        -- apply (HasNew (with_ackw (with_cache (with_cbp C bp') k) (c_ackw C ++ [m]))) in H; auto. right; right; left. tauto.
        -- cbn in H. apply in_app_or in H. destruct H as [H|[<-|[]]]; [right; right; right; exact H|exact Howed].
      * intros m' h K. apply Hk in K. apply u_handles0. tauto.
      * intros Lc. specialize (Hown Lc). discriminate.
Qed.
End Inv.
