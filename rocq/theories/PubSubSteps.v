(** The invariant is preserved by every transition. *)
From Coq Require Import List ZArith Arith Bool Lia.
From Verif Require Import BackpressureModel BackpressureProofs CacheModel CacheProofs TransportModel PubSubModel PubSubSpec PubSubInv PubSubSub.
Import ListNotations.

Section Steps.
Context {Obj : Type}.
Variable cfg : config.
Hypothesis W : wf cfg.
Notation st := (st Obj).
Notation pubst := (pubst Obj).
Notation chst := (chst Obj).
Notation sbst := (sbst Obj).
Notation CInv := (CInv cfg).
Notation nb := (nb cfg).
Notation pubof := (pubof cfg).
Notation ch_inv := (ch_inv cfg).
Notation up_inv := (up_inv cfg).
Notation SInv := (SInv cfg).
Notation Inv := (Inv cfg).
Notation pend := (pend cfg).
Notation is_local := (is_local cfg).
Notation is_shm := (is_shm cfg).
Implicit Types x y z : st.
Implicit Types P : pubst.
Implicit Types C : chst.
Implicit Types o : Obj.

Definition none2 (_ _ : nat) : Prop := False.
(** The frame of the message being sent has been written to [c] and its lease is not taken yet. *)
Definition exc_of x c m : Prop :=
  match p_phase (pubs x (pubof c)) with Draining _ c' _ => c = c' /\ m = p_nxt (pubs x (pubof c)) | _ => False end.
(** Channel [c] has not been sent the message being sent. *)
Definition lag_of x c : bool :=
  match p_phase (pubs x (pubof c)) with Growing _ => negb (is_local c) | Draining _ _ todo => mem c todo | _ => false end.
Definition next_of x (_ c : nat) : nat := c_next (chs x c).
Definition busy (ph : phase Obj) : nat := match ph with Growing _ | Draining _ _ _ => 1 | _ => 0 end.

Definition todo_ok (p : nat) P (o : Obj) (l todo : list nat) : Prop :=
  NoDup l /\ incl l (p_chans P) /\ (forall c, In c l -> is_local c = false) /\
  ((exists c, In c todo /\ is_shm c = true) -> p_mem P (p_gen P) (p_nxt P mod nbuf cfg p) = Some (p_nxt P, o)).

Record pchans x (p : nat) P : Prop := {
  g_chans : forall c, In c (p_chans P) -> pubof c = p /\ c_born (chs x c) = true;
  g_nodup : NoDup (p_chans P);
  g_local : forall c d, In c (p_chans P) -> In d (p_chans P) -> is_local c = true -> is_local d = true -> c = d }.

Record pg x (p : nat) P : Prop := {
  g_total : total P = p_nxt P + busy (p_phase P);
  g_obj : match p_phase P with Growing o => nth_error (p_sent P) (p_nxt P) = Some o
                             | Draining o _ _ => nth_error (p_sent P) (p_nxt P) = Some o | _ => True end;
  g_pc : pchans x p P;
  g_loc : forall c, In c (p_chans P) -> is_local c = true -> c_next (chs x c) = total P;
  g_drain : match p_phase P with Draining o cur todo => todo_ok p P o (cur :: todo) todo | _ => True end }.

Definition FInv x : Prop :=
  Inv none3 (exc_of x) none2 (lag_of x) (next_of x) x /\ forall p, pg x p (pubs x p).

(** Tools: changing one publisher, changing one channel. *)
Lemma CInv_setP pd (exc exc' : nat -> nat -> Prop) exc2 (lag lag' : nat -> bool) x p P' :
  CInv pd exc exc2 lag x -> bp_inv (nbuf cfg p) (p_bp P') ->
  (forall c, pubof c = p -> ch_inv (nb c) c P' (chs x c) (fun s m => pd s c m) (exc' c) (exc2 c) (lag' c)) ->
  (forall c, pubof c <> p -> (forall m, exc c m -> exc' c m) /\ lag c = lag' c) ->
  CInv pd exc' exc2 lag' (setP x p P').
Proof.
  intros [A B] Hb Hp Ho. split.
  - intros q. cbn. unfold upd. destruct (Nat.eqb_spec q p) as [->|_]; [exact Hb|apply A].
  - intros c. cbn [pubs setP chs]. unfold upd. destruct (Nat.eqb_spec (pubof c) p) as [E|N]; [now apply Hp|].
    destruct (Ho c N) as [H1 H2]. rewrite <- H2. eapply ch_inv_ext; [..|apply B]; auto. tauto.
Qed.

Lemma ch_inv_lag n c P C pd (exc exc' : nat -> Prop) exc2 (lag lag' : bool) :
  (c_up C = true -> (forall m, exc m -> exc' m) /\ lag = lag') -> ch_inv n c P C pd exc exc2 lag -> ch_inv n c P C pd exc' exc2 lag'.
Proof.
  intros E [A B D U]. split; auto. intros Q. destruct (E Q) as [E1 <-]. destruct (U Q). constructor; auto.
  intros m H. destruct (u_owed m H) as [? [?|?]]; auto.
Qed.

Lemma SInv_setP next x p P' :
  (forall m v, nth_error (p_sent (pubs x p)) m = Some v -> nth_error (p_sent P') m = Some v) ->
  (forall s r, In r (s_reading (sbs x s)) -> r_stale r = false -> r_pub r = p -> s_chan (sbs x s) p = Some (r_chan r) -> c_up (chs x (r_chan r)) = true ->
     hgood (nbuf cfg p) (pubs x p) (r_id r) (r_h r) -> hkind (is_shm (r_chan r)) (r_h r) -> hgood (nbuf cfg p) P' (r_id r) (r_h r)) ->
  SInv next x -> SInv next (setP x p P').
Proof.
  intros H1 H2 (A & B & D). split; [|split]; auto. intros s. destruct (A s). constructor; auto.
  - intros q m v H. cbn. unfold upd. destruct (b_vals q m v H) as [K1 K2]. destruct (Nat.eqb_spec q p) as [->|_]; [|auto].
    split; [exact K1|]. destruct v as [v|]; [|congruence]. symmetry. apply H1. now rewrite K2.
  - intros r K1 K2 K3. destruct (b_hgood r K1 K2 K3) as [K4 K5]. split; [|exact K5].
    cbn. unfold upd. destruct (Nat.eqb_spec (r_pub r) p) as [E|_]; [|exact K4]. rewrite E in *.
    eapply H2; eauto. destruct (b_read r K1 K2) as [K6 _]. now rewrite E in K6.
Qed.

Lemma SInv_setP_keep next x p P' :
  p_sent P' = p_sent (pubs x p) -> p_gen P' = p_gen (pubs x p) -> (forall g b, p_mem P' g b = p_mem (pubs x p) g b) ->
  SInv next x -> SInv next (setP x p P').
Proof.
  intros E1 E2 E3. apply SInv_setP.
  - intros m v. now rewrite E1.
  - intros s r _ _ _ _ _ H _. eapply hgood_keep; eauto.
Qed.

Lemma SInv_setC next x c C' :
  c_clients C' = c_clients (chs x c) -> c_born C' = c_born (chs x c) -> (c_up C' = true -> c_up (chs x c) = true) ->
  SInv next x -> SInv next (setC x c C').
Proof.
  intros E1 E2 E3 (A & B & D). split; [|split].
  - intros s. destruct (A s). constructor; auto.
    + intros p d H. cbn. unfold upd. destruct (b_conn p d H) as (K1 & K2 & K3).
      destruct (Nat.eqb_spec d c) as [->|_]; [|auto]. rewrite E1, E2. auto.
    + intros r K1 K2. cbn. unfold upd. destruct (Nat.eqb_spec (r_chan r) c) as [E|_]; [|auto].
      intros K3. apply b_hgood; auto. rewrite E. auto.
  - intros d s. cbn. unfold upd. destruct (Nat.eqb_spec d c) as [->|_]; [rewrite E1|]; apply B.
  - intros d. cbn. unfold upd. destruct (Nat.eqb_spec d c) as [->|_]; [rewrite E1|]; apply D.
Qed.

Lemma pchans_ext x x' p P P' :
  (forall c, c_born (chs x c) = true -> c_born (chs x' c) = true) -> p_chans P' = p_chans P -> pchans x p P -> pchans x' p P'.
Proof.
  intros E1 E2 []. constructor; rewrite E2; auto. intros c H. destruct (g_chans0 c H). auto.
Qed.

Lemma pg_ext x x' p P P' :
  (forall c, c_born (chs x c) = true -> c_born (chs x' c) = true) -> (forall c, In c (p_chans P) -> is_local c = true -> c_next (chs x' c) = c_next (chs x c)) ->
  p_chans P' = p_chans P -> p_sent P' = p_sent P -> p_nxt P' = p_nxt P -> p_phase P' = p_phase P -> p_gen P' = p_gen P ->
  p_mem P' = p_mem P -> pg x p P -> pg x' p P'.
Proof.
  intros E1 En E2 E3 E4 E5 E6 E7 []. constructor; unfold total in *; rewrite ?E3, ?E4, ?E5; auto.
  - eapply pchans_ext; eauto.
  - intros c. rewrite E2. intros K1 K2. rewrite En; auto.
  - destruct (p_phase P); auto. unfold todo_ok in *. rewrite E2, E4, E6, E7. exact g_drain0.
Qed.

Lemma pg_core x x' p : core x x' -> pg x p (pubs x p) -> pg x' p (pubs x' p).
Proof.
  intros K. rewrite (k_pub _ _ K p). apply pg_ext; auto; intros c H. now rewrite (k_born _ _ K). intros _. now rewrite (k_next _ _ K).
Qed.

Lemma exc_core x x' c m : core x x' -> exc_of x' c m <-> exc_of x c m.
Proof. intros K. unfold exc_of. rewrite (k_pub _ _ K). cbn. tauto. Qed.
Lemma lag_core x x' c : core x x' -> lag_of x' c = lag_of x c.
Proof. intros K. unfold lag_of. rewrite (k_pub _ _ K). reflexivity. Qed.

Lemma CInv_lag pd (exc exc' : nat -> nat -> Prop) exc2 (lag lag' : nat -> bool) x :
  (forall c, c_up (chs x c) = true -> (forall m, exc c m -> exc' c m) /\ lag c = lag' c) -> CInv pd exc exc2 lag x -> CInv pd exc' exc2 lag' x.
Proof. intros E [A B]. split; [exact A|]. intros c. eapply ch_inv_lag; [|apply B]. apply E. Qed.

(** The state after something that keeps the core and the invariant. *)
Lemma FInv_core x x' : core x x' -> FInv x -> Inv none3 (exc_of x) none2 (lag_of x) (next_of x) x' -> FInv x'.
Proof.
  intros K [_ G] [CI SI]. split; [split|].
  - eapply CInv_lag; [|exact CI]. intros c _. split; [|symmetry; apply lag_core; exact K]. intros m H. now apply (exc_core x x').
  - eapply SInv_next; [|exact SI]. intros s c _. unfold next_of. now rewrite (k_next _ _ K).
  - intros p. apply (pg_core x); auto.
Qed.

(** Message contents when a message is appended, written, or the segment grows. *)
Lemma nth_app_some {A} (l : list A) a m v : nth_error l m = Some v -> nth_error (l ++ [a]) m = Some v.
Proof. intros H. rewrite nth_error_app1; [exact H|]. apply nth_error_Some. congruence. Qed.

Lemma good_app n P P' o m g : p_sent P' = p_sent P ++ [o] -> p_gen P' = p_gen P -> p_mem P' = p_mem P -> good n P m g -> good n P' m g.
Proof. intros E1 E2 E3 (v & A & B). exists v. rewrite E1, E2, E3. split; [now apply nth_app_some|exact B]. Qed.
Lemma hgood_app n P P' o m h : p_sent P' = p_sent P ++ [o] -> p_gen P' = p_gen P -> p_mem P' = p_mem P -> hgood n P m h -> hgood n P' m h.
Proof.
  intros E1 E2 E3. destruct h as [v|g b]; cbn; [rewrite E1; apply nth_app_some|].
  intros (A & B & C). rewrite E2. eauto using good_app.
Qed.
Lemma frames_app n P P' o shm w : forall glo, p_sent P' = p_sent P ++ [o] -> p_gen P' = p_gen P -> p_mem P' = p_mem P ->
  frames_ok n P shm glo w -> frames_ok n P' shm glo w.
Proof.
  induction w as [|[m g|m v] w IH]; intros glo E1 E2 E3; cbn; [trivial| |].
  - intros (A & B & C & D). rewrite E2. repeat split; try lia; eauto using good_app.
  - intros (A & B & C). rewrite E1. auto using nth_app_some.
Qed.

(** [frames_ok] only looks at [good] for the ids of the frames. *)
Lemma frames_mono n P P' shm w : forall glo,
  (forall m v, In m (map fid w) -> nth_error (p_sent P) m = Some v -> nth_error (p_sent P') m = Some v) -> p_gen P <= p_gen P' ->
  (forall m g, In m (map fid w) -> g <= p_gen P -> good n P m g -> good n P' m g) -> frames_ok n P shm glo w -> frames_ok n P' shm glo w.
Proof.
  induction w as [|[m g|m v] w IH]; intros glo E1 E2 E3; cbn; [trivial| |].
  - intros (A & B & C & D). repeat split; try lia; auto.
    + apply E3; [now left|lia|exact C].
    + apply IH; auto; intros; [apply E1|apply E3]; auto; now right.
  - intros (A & B & C). repeat split; auto.
    + apply E1; [now left|exact B].
    + apply IH; auto; intros; [apply E1|apply E3]; auto; now right.
Qed.

Lemma frames_snoc n P shm f w : forall glo,
  frames_ok n P shm glo w -> glo <= p_gen P ->
  match f with FTcp m o => shm = false /\ nth_error (p_sent P) m = Some o
             | FShm m g => shm = true /\ g = p_gen P /\ good n P m g end ->
  frames_ok n P shm glo (w ++ [f]).
Proof.
  induction w as [|[m g|m v] w IH]; intros glo; cbn.
  - intros _ L. destruct f as [m g|m o]; cbn; [|tauto]. intros (A & -> & C). repeat split; auto.
  - intros (A & B & C & D) L F. repeat split; auto; try lia. apply IH; auto. lia.
  - intros (A & B & C) L F. repeat split; auto.
Qed.

(** A new message begins: [sent] grows by one, the slot it needs is free. *)
Lemma append_ch n c P P' C pd (exc : nat -> Prop) o :
  0 < n -> bp_inv n (p_bp P) -> (forall u, ~ held_in (p_bp P) u (total P mod n)) ->
  p_sent P' = p_sent P ++ [o] -> p_gen P' = p_gen P -> p_mem P' = p_mem P -> p_bp P' = p_bp P -> p_chans P' = p_chans P ->
  (forall m, ~ exc m) ->
  ch_inv n c P C pd exc (fun _ => False) false -> ch_inv n c P' C pd exc (fun _ => False) true.
Proof.
  intros Hn Hb Hfree E1 E2 E3 E4 E5 Nx [A B D U]. split; auto.
  - intros Q m h K. destruct (D Q m h K) as (v & -> & Hv). exists v. split; auto. rewrite E1. now apply nth_app_some.
  - intros Q. specialize (U Q). pose proof (fun m => owed_lt cfg n c P C pd exc _ _ m U) as OL.
    assert (T : total P' = S (total P)) by (unfold total; rewrite E1, app_length; cbn; lia).
    assert (Win : forall m, owed C m -> S (total P) <= m + n /\ (held_in (p_bp P) c (m mod n) \/ exc m)).
    { intros m H. destruct (u_owed _ _ _ _ _ _ _ _ _ U m H) as [K1 K2]. split; [|exact K2].
      destruct K2 as [K2|K2]; [|exfalso; eapply Nx; eauto].
      destruct (Nat.eq_dec (total P) (m + n)) as [E|]; [|lia]. exfalso. apply (Hfree c). rewrite E.
      replace (m + n) with (m + 1 * n) by lia. rewrite Nat.mod_add by lia. exact K2. }
    destruct U. constructor; auto; rewrite ?E2, ?E4, ?E5; auto.
    + intros s m H. destruct (u_pend s m H) as (K1 & K2 & [K3|[]]). repeat split; auto. rewrite T.
      apply Win. right; right; left; exact K3.
    + rewrite T. lia.
    + intros m H. rewrite T. auto.
    + intros m h K. destruct (u_handles m h K) as (K1 & K2 & K3). repeat split; eauto using hgood_app.
    + destruct (c_re C) as [[[keys m] g]|]; [|eapply frames_app; eauto].
      destruct u_frames as (F1 & F2 & F3 & F4 & F5). repeat split; try lia; eauto using good_app, frames_app.
Qed.

(** Writing slot [nxt] of the current segment. *)
Lemma good_write n P m g o :
  0 < n -> m < p_nxt P -> p_nxt P < m + n -> good n P m g ->
  good n {| p_sent := p_sent P; p_nxt := p_nxt P; p_run := p_run P; p_phase := p_phase P; p_bp := p_bp P; p_gen := p_gen P;
            p_mem := upd2 (p_mem P) (p_gen P) (p_nxt P mod n) (Some (p_nxt P, o)); p_chans := p_chans P |} m g.
Proof.
  intros Hn L1 L2 (v & A & B). exists v. cbn. split; [exact A|]. intros g' Hg. unfold upd2.
  destruct (Nat.eqb_spec g' (p_gen P)); [|cbn; auto]. destruct (Nat.eqb_spec (m mod n) (p_nxt P mod n)); cbn; auto.
  assert (m = p_nxt P) by (apply (window_mod n); auto; lia). lia.
Qed.

Lemma slot_nb c m : slot_of cfg (pubof c) m = m mod nb c.
Proof. reflexivity. Qed.

Lemma write_slot_Inv exc lag x p o :
  Inv none3 exc none2 lag (next_of x) x -> total (pubs x p) = S (p_nxt (pubs x p)) ->
  (forall c, pubof c = p -> c_up (chs x c) = true -> is_shm c = true -> lag c = true /\ forall m, ~ exc c m) ->
  Inv none3 exc none2 lag (next_of (write_slot cfg x p o)) (write_slot cfg x p o).
Proof.
  intros [CI SI] T Hl. unfold write_slot. cbn zeta. set (P := pubs x p) in *.
  set (P' := {| p_sent := p_sent P; p_nxt := p_nxt P; p_run := p_run P; p_phase := p_phase P; p_bp := p_bp P; p_gen := p_gen P;
               p_mem := upd2 (p_mem P) (p_gen P) (slot_of cfg p (p_nxt P)) (Some (p_nxt P, o)); p_chans := p_chans P |}).
  assert (GW : forall m g, m < p_nxt P -> p_nxt P < m + nbuf cfg p -> good (nbuf cfg p) P m g -> good (nbuf cfg p) P' m g).
  { intros m g H1 H2 H3. apply good_write; auto. apply W. }
  split.
  - eapply CInv_setP; [exact CI|exact (proj1 CI p)| |auto].
    intros c Ec. destruct CI as [_ B]. destruct (B c) as [B1 B2 B3 B4]. unfold nb in *. rewrite Ec in *. fold P in B1, B2, B3, B4.
    split; auto. intros Up. specialize (B4 Up). specialize (Hl c Ec Up).
    pose proof (fun m => owed_lt cfg _ _ _ _ _ _ _ _ m B4) as OL.
    assert (OK : is_shm c = true -> forall m, owed (chs x c) m -> m < p_nxt P /\ p_nxt P < m + nbuf cfg p).
    { intros Sh m H. destruct (Hl Sh) as [Lg Nx]. pose proof (u_sent _ _ _ _ _ _ _ _ _ B4) as S1. rewrite Lg in S1.
      destruct (u_owed _ _ _ _ _ _ _ _ _ B4 m H) as [K1 _]. split; [|lia].
      pose proof (u_ids _ _ _ _ _ _ _ _ _ B4) as I1.
      assert (Q : In m (rem (chs x c) ++ map fid (c_wire (chs x c))) -> m < p_nxt P).
      { intros Q. rewrite I1 in Q. apply in_seq in Q. lia. }
      destruct H as [H|[H|[H|H]]].
      - apply Q, in_or_app; auto.
      - apply Q, in_or_app; auto.
      - apply (u_has _ _ _ _ _ _ _ _ _ B4) in H. lia.
      - apply (u_ackw _ _ _ _ _ _ _ _ _ B4) in H. lia. }
    destruct B4. constructor; auto.
    + intros m h K. destruct (u_handles m h K) as (K1 & K2 & K3). repeat split; auto.
      destruct h as [v|g b]; cbn in *; [exact K1|]. destruct K1 as (-> & K4 & K5). repeat split; auto.
      destruct (OK K2 m) as [? ?]; [right; right; left; left; eexists; exact K|]. apply GW; auto.
    + destruct (c_re (chs x c)) as [[[keys m] g]|] eqn:Re.
      * destruct u_frames as (F1 & F2 & F3 & F4 & F5). specialize (OK F1). refine (conj F1 (conj F2 (conj _ (conj _ _)))).
        -- destruct (OK m) as [? ?]; [right; left; unfold rem; rewrite Re; now left|]. apply GW; auto.
        -- intros k Hk. destruct (OK k) as [? ?]; [right; right; left; right; unfold rekeys; rewrite Re; exact Hk|]. apply GW; auto.
        -- eapply frames_mono; [..|exact F5]; cbn; auto. intros m' g' Hm _ G. destruct (OK m') as [? ?]; [now left|]. apply GW; auto.
      * destruct (is_shm c) eqn:Sh.
        -- eapply frames_mono; [..|exact u_frames]; cbn; auto. intros m' g' Hm _ G. destruct (OK eq_refl m') as [? ?]; [now left|]. apply GW; auto.
        -- clear - u_frames. revert u_frames. generalize (c_gen (chs x c)). induction (c_wire (chs x c)) as [|[m g|m v] w IH]; intros glo; cbn; auto.
           ++ intros (? & _). discriminate.
           ++ intros (? & ? & ?). auto.
  - assert (E : forall s c, In s (c_clients (chs x c)) -> next_of x s c = next_of (setP x p P') s c) by reflexivity.
    eapply SInv_next; [exact E|]. apply SInv_setP; auto.
    intros s r H1 H2 H3 H4 H5 H6 H7. fold P in H6. destruct (r_h r) as [v|g b]; cbn in *; [exact H6|]. destruct H6 as (-> & K1 & K2). repeat split; auto.
    destruct CI as [_ B]. destruct (B (r_chan r)) as [_ _ _ B4]. specialize (B4 H5).
    assert (Ec : pubof (r_chan r) = p) by (apply (b_conn _ _ _ _ _ (proj1 SI s) p (r_chan r) H4)).
    unfold nb in B4. rewrite Ec in B4. fold P in B4. destruct (Hl _ Ec H5 H7) as [Lg Nx]. rewrite Lg in B4.
    assert (Pd : pend x s (r_chan r) (r_id r)).
    { split; [now rewrite Ec|]. right. exists r. rewrite Ec. auto. }
    destruct (u_pend _ _ _ _ _ _ _ _ _ B4 s (r_id r) (or_introl Pd)) as (U1 & U2 & _).
    pose proof (u_sent _ _ _ _ _ _ _ _ _ B4) as U3. cbn in U3. apply GW; auto; lia.
Qed.

(** A bigger segment with the old contents. *)
Definition grow_pub P : pubst :=
  {| p_sent := p_sent P; p_nxt := p_nxt P; p_run := p_run P; p_phase := p_phase P; p_bp := p_bp P; p_gen := S (p_gen P);
     p_mem := (fun g b => if Nat.eqb g (S (p_gen P)) then p_mem P (p_gen P) b else p_mem P g b); p_chans := p_chans P |}.

Lemma good_grow n P m g : g <= p_gen P -> good n P m g -> good n (grow_pub P) m g.
Proof.
  intros L (v & A & B). exists v. cbn. split; [exact A|]. intros g' Hg. destruct (Nat.eqb_spec g' (S (p_gen P))); apply B; lia.
Qed.
Lemma hgood_grow n P m h : hgood n P m h -> hgood n (grow_pub P) m h.
Proof. destruct h as [v|g b]; cbn; [auto|]. intros (-> & A & B). repeat split; auto. now apply good_grow. Qed.

Lemma grow_Inv exc lag x p :
  Inv none3 exc none2 lag (next_of x) x -> Inv none3 exc none2 lag (next_of x) (setP x p (grow_pub (pubs x p))).
Proof.
  intros [CI SI]. split.
  - eapply CInv_setP; [exact CI|exact (proj1 CI p)| |auto].
    intros c Ec. destruct CI as [_ B]. destruct (B c) as [B1 B2 B3 B4]. unfold nb in *. rewrite Ec in *. split; auto.
    intros Up. destruct (B4 Up). constructor; auto.
    + intros m h K. destruct (u_handles m h K) as (K1 & K2 & K3). repeat split; auto using hgood_grow.
    + destruct (c_re (chs x c)) as [[[keys m] g]|].
      * destruct u_frames as (F1 & F2 & F3 & F4 & F5). repeat split; cbn; auto; try lia.
        -- apply good_grow; auto; lia.
        -- intros k Hk. apply good_grow; auto; lia.
        -- eapply frames_mono; [..|exact F5]; cbn; auto. intros. now apply good_grow.
      * eapply frames_mono; [..|exact u_frames]; cbn; auto. intros. now apply good_grow.
    + cbn. lia.
  - apply SInv_setP; auto. intros. now apply hgood_grow.
Qed.
End Steps.
