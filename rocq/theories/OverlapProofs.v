(* Orderly calls of broadcast(): the invariant. *)

From Coq Require Import List Arith Bool Lia.
From Verif Require Import TransportModel OverlapModel OverlapSpec.
Import ListNotations.

Section Proofs.
Context {Obj : Type}.
Context (nbuf : nat) (chans : list nat) (kind : nat -> transport).
Context (Hn : 0 < nbuf) (Hc : NoDup chans).
Notation st := (@st Obj).
Notation chan := (@chan Obj).
Notation slot := (slot nbuf).

Lemma upd_same {A} (f : nat -> A) k v : upd f k v k = v.
Proof. unfold upd. now rewrite Nat.eqb_refl. Qed.
Lemma upd_other {A} (f : nat -> A) k v j : j <> k -> upd f k v j = f j.
Proof. unfold upd. intros H. destruct (Nat.eqb_spec j k); congruence. Qed.

Lemma slots_differ a b : a < b -> b < a + nbuf -> slot a <> slot b.
Proof.
  unfold OverlapModel.slot. intros H1 H2 E. pose proof (Nat.div_mod a nbuf ltac:(lia)) as A. pose proof (Nat.div_mod b nbuf ltac:(lia)) as B.
  rewrite E in A. assert (b - a = nbuf * (b / nbuf - a / nbuf)) by (rewrite Nat.mul_sub_distr_l; lia).
  destruct (b / nbuf - a / nbuf) as [|k]; [lia|]. nia.
Qed.

Lemma nth_set_same {A} i (x : A) l y : nth_error l i = Some y -> nth_error (set_nth i x l) i = Some x.
Proof. revert i. induction l as [|z l IH]; intros [|i]; cbn; try discriminate; auto. Qed.
Lemma nth_set_other {A} i j (x : A) l : i <> j -> nth_error (set_nth i x l) j = nth_error l j.
Proof. revert i j. induction l as [|z l IH]; intros [|i] [|j]; cbn; auto; try congruence. Qed.

(** ** Calls *)

Lemma call_at_fun (s : st) i p q : call_at s i p -> call_at s i q -> p = q.
Proof. intros (x & A & <-) (y & B & <-). congruence. Qed.

Lemma move_calls (s : st) i p x : nth_error (calls s) i = Some x ->
  calls (move s i p) = set_nth i (mkCall (obj x) p (late x)) (calls s).
Proof. unfold move. intros ->. reflexivity. Qed.

Lemma move_at (s : st) i p x j q : nth_error (calls s) i = Some x ->
  (call_at (move s i p) j q <-> (j = i /\ q = p) \/ (j <> i /\ call_at s j q)).
Proof.
  intros H. unfold call_at. rewrite (move_calls _ _ _ _ H). destruct (Nat.eq_dec j i) as [->|N].
  - rewrite (nth_set_same _ _ _ _ H). split.
    + intros (y & [= <-] & <-). left. auto.
    + intros [(_ & ->)|(N & _)]; [|congruence]. eexists. split; reflexivity.
  - rewrite nth_set_other by congruence. intuition congruence.
Qed.

Lemma move_object (s : st) i p j o : object (move s i p) j o <-> object s j o.
Proof.
  unfold object. destruct (nth_error (calls s) i) as [x|] eqn:H; [|unfold move; rewrite H; tauto]. rewrite (move_calls _ _ _ _ H).
  destruct (Nat.eq_dec j i) as [->|N].
  - rewrite (nth_set_same _ _ _ _ H), H. split; intros (y & [= <-] & <-); eexists; split; reflexivity.
  - rewrite nth_set_other by congruence. tauto.
Qed.

Lemma move_rest (s : st) i p : running (move s i p) = running s /\ next (move s i p) = next s /\ leases (move s i p) = leases s /\
  mem (move s i p) = mem s /\ ch (move s i p) = ch s.
Proof. unfold move. destruct (nth_error (calls s) i); cbn; auto. Qed.

(** ** Channels *)

Definition fid (f : @frame Obj) : nat := match f with FShm m => m | FTcp m _ _ => m end.
Definition live (x : chan) (m : nat) : Prop := held x = Some m \/ In m (queue x) \/ In m (map fid (wire x)).
Definition outstanding (x : chan) (m : nat) : Prop := live x m \/ In m (acks x).

(** How many messages have been sent to channel [c], while those in [todo] still have to be sent the last one. *)
Definition due (ord : list (nat * Obj)) (n : nat) (todo : list nat) (c : nat) : nat :=
  if in_dec Nat.eq_dec c todo then if is_local kind c then length ord else n else length ord.

Record ch_inv (ord : list (nat * Obj)) (n : nat) (todo : list nat) (ex : option nat) (ls : list (nat * nat))
    (me : nat -> option (nat * Obj)) (c : nat) (x : chan) : Prop := {
  ci_up : up x = true;
  ci_le : length (got x) <= due ord n todo c;
  ci_ids : queue x ++ map fid (wire x) = seq (length (got x)) (due ord n todo c - length (got x));
  ci_held : forall m, held x = Some m -> S m = length (got x);
  ci_got : got x = map Some (firstn (length (got x)) (map snd ord));
  ci_frames : forall f, In f (wire x) -> match f with
                | FShm m => kind c = SharedMemory
                | FTcp m h o => kind c = Tcp /\ h = m /\ nth_error (map snd ord) m = Some o
                end;
  ci_local : kind c = InProcess -> wire x = [] /\ acks x = [];
  ci_acks : NoDup (acks x) /\ forall m, In m (acks x) -> m < length (got x) /\ held x <> Some m;
  ci_lease : forall m, outstanding x m -> In (c, slot m) ls \/ (ex = Some c /\ m = n);
  ci_recent : forall m, outstanding x m -> length ord <= m + nbuf;
  ci_mem : kind c = SharedMemory -> forall m, live x m -> exists o, me (slot m) = Some (m, o) /\ nth_error (map snd ord) m = Some o;
  ci_cache : forall m, held x = Some m \/ In m (queue x) -> exists h, cache x (slot m) = Some (m, h) /\
               match h with Val o => kind c <> SharedMemory /\ nth_error (map snd ord) m = Some o | View b => b = slot m /\ kind c = SharedMemory end
}.

Lemma due_le ord n todo c : n <= length ord -> due ord n todo c <= length ord.
Proof. unfold due. destruct in_dec; [destruct is_local|]; lia. Qed.

Lemma outstanding_lt ord n todo ex ls me c x m : n <= length ord -> ch_inv ord n todo ex ls me c x -> outstanding x m ->
  m < due ord n todo c.
Proof.
  intros L I [[H|H]|H].
  - apply (ci_held _ _ _ _ _ _ _ _ I) in H. pose proof (ci_le _ _ _ _ _ _ _ _ I). lia.
  - assert (In m (queue x ++ map fid (wire x))) as J by (apply in_or_app; tauto). rewrite (ci_ids _ _ _ _ _ _ _ _ I) in J.
    apply in_seq in J. pose proof (ci_le _ _ _ _ _ _ _ _ I). lia.
  - apply (proj2 (ci_acks _ _ _ _ _ _ _ _ I)) in H. pose proof (ci_le _ _ _ _ _ _ _ _ I). lia.
Qed.

Lemma outstanding_slots ord n todo ex ls me c x m m' : n <= length ord -> ch_inv ord n todo ex ls me c x ->
  outstanding x m -> outstanding x m' -> m <> m' -> slot m <> slot m'.
Proof.
  intros L I O O' N. pose proof (outstanding_lt _ _ _ _ _ _ _ _ _ L I O) as A. pose proof (outstanding_lt _ _ _ _ _ _ _ _ _ L I O') as A'.
  pose proof (due_le ord n todo c L) as D. pose proof (ci_recent _ _ _ _ _ _ _ _ I _ O). pose proof (ci_recent _ _ _ _ _ _ _ _ I _ O').
  destruct (Nat.lt_trichotomy m m') as [T|[T|T]]; [apply slots_differ; lia|congruence|]. intros E. symmetry in E. revert E. apply slots_differ; lia.
Qed.

(** ** The invariant *)

Record inv (ord : list (nat * Obj)) (s : st) (w : option (nat * nat * list nat)) : Prop := {
  i_one : forall i j p q, call_at s i p -> call_at s j q -> inside p -> inside q -> i = j;
  i_buf : forall i b m wk, call_at s i (AtBuffer b m wk) -> b = slot (next s) /\ m = next s /\ (wk = true -> available (leases s) b = true);
  i_wr : forall i b m h cur todo, call_at s i (AtDrain b m h cur todo) <->
           (w = Some (i, cur, todo) /\ b = slot (next s) /\ m = next s /\ h = next s);
  i_len : length ord = match w with Some _ => S (next s) | None => next s end;
  i_cur : forall i cur todo, w = Some (i, cur, todo) -> exists o dn, nth_error ord (next s) = Some (i, o) /\ object s i o /\
            chans = dn ++ cur :: todo /\ kind cur <> InProcess /\
            (existsb (is_shm kind) chans = true -> mem s (slot (next s)) = Some (next s, o));
  i_pub : publications s ord;
  i_ch : forall c, In c chans -> ch_inv ord (next s) (match w with Some (_, _, todo) => todo | None => [] end)
           (match w with Some (_, cur, _) => Some cur | None => None end) (leases s) (mem s) c (ch s c)
}.

Lemma inv_len ord s w : inv ord s w -> next s <= length ord.
Proof. intros I. rewrite (i_len _ _ _ I). destruct w; lia. Qed.

Lemma init_inv : inv [] (@init Obj) None.
Proof.
  constructor; try (intros; exfalso; match goal with H : call_at _ _ _ |- _ => destruct H as (x & H & _); destruct i; discriminate end).
  - intros. split.
    + intros (x & H & _). destruct i; discriminate.
    + intros (H & _). discriminate.
  - reflexivity.
  - discriminate.
  - split; [constructor|]. split; [intros i o []|]. intros i p (x & H & _). destruct i; discriminate.
  - intros c _. assert (E : due [] 0 [] c = 0) by (unfold due; destruct in_dec; [destruct is_local|]; reflexivity).
    constructor; cbn [init ch got wire queue held acks cache up length]; rewrite ?E; auto; try (unfold outstanding, live; cbn; intuition (try discriminate; try contradiction)).
    constructor.
Qed.

(** Changes that the invariant does not see. *)
Lemma inv_ext ord s s' w :
  inv ord s w -> next s' = next s -> leases s' = leases s -> mem s' = mem s -> ch s' = ch s ->
  (forall i p, inside p -> call_at s' i p -> call_at s i p) -> (forall i p, writing p -> call_at s i p -> call_at s' i p) ->
  (forall i o, object s i o -> object s' i o) ->
  (forall i, call_at s' i Returned <-> call_at s i Returned) -> inv ord s' w.
Proof.
  intros I E1 E2 E3 E4 F1 F1' F2 F3. destruct I as [A B C D E (P1 & P2 & P3) G]. constructor; rewrite ?E1, ?E2, ?E3, ?E4; auto.
  - intros i j p q H1 H2 K1 K2. eapply A; eauto.
  - intros i b m wk H. apply (B i). apply F1; [exact I|exact H].
  - intros i b m h cur todo. rewrite <- C. split; [apply F1; exact I|apply F1'; exact I].
  - intros i cur todo H. destruct (E i cur todo H) as (o & dn & X1 & X2 & X3 & X4 & X5). exists o, dn. auto 6.
  - split; [exact P1|]. split.
    + intros i o H. destruct (P2 i o H) as (X & p & Y & Z). split; [auto|]. exists p. split; [|exact Z]. destruct Z as [->|Z]; [now apply F3|]. now apply F1'.
    + intros i p H Z. apply (P3 i p); [|exact Z]. destruct Z as [->|Z]; [now apply F3|]. apply F1; [|exact H]. now destruct p.
Qed.

(** A call that is not inside moves to where it is not inside. *)
Lemma inv_move ord s w i p q : inv ord s w -> call_at s i q -> ~ writing q -> q <> Returned -> ~ inside p -> p <> Returned -> inv ord (move s i p) w.
Proof.
  intros I (x & H & Q) NQ NR NP NR'. destruct (move_rest s i p) as (_ & E1 & E2 & E3 & E4).
  eapply inv_ext; eauto.
  - intros j r IR M. apply (move_at _ _ _ _ _ _ H) in M. destruct M as [(-> & ->)|(_ & M)]; [contradiction|exact M].
  - intros j r WR M. apply (move_at _ _ _ _ _ _ H). destruct (Nat.eq_dec j i) as [->|N]; [|auto].
    destruct M as (y & M1 & M2). assert (y = x) by congruence. subst. contradiction.
  - intros j o O. now apply move_object.
  - intros j. rewrite (move_at _ _ _ _ _ _ H). split.
    + intros [(-> & <-)|(_ & M)]; [congruence|exact M].
    + intros M. right. split; [|exact M]. intros ->. destruct M as (y & M1 & M2). congruence.
Qed.

(** ** Writing *)

(** Between two sections: call [i] is about to write to the channels in [todo]. *)
Record pre (ord : list (nat * Obj)) (s : st) (i : nat) (o : Obj) (todo : list nat) : Prop := {
  r_call : object s i o;
  r_alone : forall j p, call_at s j p -> inside p -> j = i;
  r_nodup : NoDup (map fst ord);
  r_obj : forall j o', In (j, o') ord -> object s j o';
  r_ord : forall j, In j (map fst ord) -> j = i \/ call_at s j Returned;
  r_ret : forall j, call_at s j Returned -> In j (map fst ord) /\ j <> i;
  r_len : length ord = S (next s);
  r_last : nth_error ord (next s) = Some (i, o);
  r_chans : exists dn, chans = dn ++ todo;
  r_ch : forall c, In c chans -> ch_inv ord (next s) todo None (leases s) (mem s) c (ch s c)
}.

Lemma pre_in ord s i o todo : pre ord s i o todo -> In i (map fst ord).
Proof. intros P. pose proof (nth_error_In _ _ (r_last _ _ _ _ _ P)) as H. apply (in_map fst) in H. exact H. Qed.

Lemma pre_finish ord s i o : pre ord s i o [] -> inv ord (finish s i) None.
Proof.
  intros P. destruct (r_call _ _ _ _ _ P) as (x & X & OX). unfold finish. destruct (move_rest s i Returned) as (_ & E1 & E2 & E3 & E4).
  set (s1 := move s i Returned) in *.
  assert (CA : forall j q, call_at (mkSt (running s1) (S (next s1)) (leases s1) (mem s1) (calls s1) (ch s1)) j q <->
                           (j = i /\ q = Returned) \/ (j <> i /\ call_at s j q)).
  { intros j q. change (call_at s1 j q <-> (j = i /\ q = Returned) \/ (j <> i /\ call_at s j q)). apply (move_at _ _ _ _ _ _ X). }
  assert (NI : forall j p, call_at (mkSt (running s1) (S (next s1)) (leases s1) (mem s1) (calls s1) (ch s1)) j p -> ~ inside p).
  { intros j p H IN. apply CA in H. destruct H as [(-> & ->)|(N & H)]; [exact IN|]. apply N. eapply r_alone; eauto. }
  constructor; cbn [next leases mem ch].
  - intros j k p q H _ IN. destruct (NI _ _ H IN).
  - intros j b m wk H. destruct (NI _ _ H I).
  - intros j b m h cur todo. split; [intros H; destruct (NI _ _ H I)|intros (? & _); discriminate].
  - rewrite (r_len _ _ _ _ _ P). lia.
  - discriminate.
  - split; [exact (r_nodup _ _ _ _ _ P)|]. split.
    + intros j o' H. split; [apply (move_object s i Returned), (r_obj _ _ _ _ _ P), H|]. exists Returned. split; [|auto]. apply CA.
      destruct (Nat.eq_dec j i) as [->|N]; [auto|]. right. split; [exact N|]. apply (in_map fst) in H. cbn [fst] in H. destruct (r_ord _ _ _ _ _ P _ H); [congruence|assumption].
    + intros j p H [->|W]; [|exfalso; apply (NI _ _ H); now destruct p]. apply CA in H. destruct H as [(-> & _)|(_ & H)]; [eapply pre_in; eauto|]. now apply (r_ret _ _ _ _ _ P).
  - intros c C. rewrite E1, E2, E3, E4. pose proof (r_ch _ _ _ _ _ P c C) as K.
    assert (D : due ord (S (next s)) [] c = due ord (next s) [] c) by reflexivity.
    destruct K. constructor; rewrite ?D; auto. intros m O. destruct (ci_lease0 m O) as [H|(H & _)]; [auto|discriminate].
Qed.

Lemma due_shrink ord n c todo c' : is_local kind c = true \/ c' <> c -> due ord n (c :: todo) c' = due ord n todo c' \/ (c' = c /\ is_local kind c = true).
Proof.
  intros H. destruct (Nat.eq_dec c' c) as [->|N]; [right; intuition|]. left. unfold due. destruct (in_dec Nat.eq_dec c' (c :: todo)) as [[->|I]|I]; [congruence| |].
  - destruct (in_dec Nat.eq_dec c' todo); [reflexivity|contradiction].
  - destruct (in_dec Nat.eq_dec c' todo); [destruct I; now right|reflexivity].
Qed.

Lemma due_local ord n todo c : is_local kind c = true -> due ord n todo c = length ord.
Proof. unfold due. intros ->. now destruct in_dec. Qed.

Lemma ch_inv_due ord n todo todo' ex ls me c x : due ord n todo c = due ord n todo' c -> ch_inv ord n todo ex ls me c x -> ch_inv ord n todo' ex ls me c x.
Proof. intros E []. constructor; rewrite <- ?E; auto. Qed.

Lemma chans_once dn c todo : chans = dn ++ c :: todo -> In c chans /\ ~ In c todo.
Proof.
  intros E. split; [rewrite E; apply in_or_app; cbn; auto|]. rewrite E in Hc. apply NoDup_remove_2 in Hc. intros H. apply Hc, in_or_app. auto.
Qed.

Lemma map_fst_nth (ord : list (nat * Obj)) n i o : nth_error ord n = Some (i, o) -> nth_error (map snd ord) n = Some o.
Proof. intros H. now rewrite (map_nth_error snd _ _ H). Qed.

(** A frame is written. *)
Lemma pre_send ord s i o c todo f : pre ord s i o (c :: todo) -> kind c <> InProcess ->
  (existsb (is_shm kind) chans = true -> mem s (slot (next s)) = Some (next s, o)) ->
  (kind c = SharedMemory -> f = FShm (next s) /\ mem s (slot (next s)) = Some (next s, o)) ->
  (kind c = Tcp -> f = FTcp (next s) (next s) o) ->
  inv ord (move (send s c f) i (AtDrain (slot (next s)) (next s) (next s) c todo)) (Some (i, c, todo)).
Proof.
  intros P NL MM FS FT. destruct (r_call _ _ _ _ _ P) as (x & X & OX). destruct (r_chans _ _ _ _ _ P) as (dn & CH).
  destruct (chans_once _ _ _ CH) as (Cin & Cnot).
  set (p := AtDrain (slot (next s)) (next s) (next s) c todo). destruct (move_rest (send s c f) i p) as (_ & E1 & E2 & E3 & E4).
  assert (X' : nth_error (calls (send s c f)) i = Some x) by exact X.
  assert (CA : forall j q, call_at (move (send s c f) i p) j q <-> (j = i /\ q = p) \/ (j <> i /\ call_at s j q)).
  { intros j q. rewrite (move_at _ _ _ _ _ _ X'). reflexivity. }
  assert (FID : fid f = next s). { destruct (kind c) eqn:K; [congruence| |]; [destruct (FS eq_refl) as (-> & _)|rewrite (FT eq_refl)]; reflexivity. }
  constructor; cbn [next leases mem ch] in *.
  - intros j k q r H1 H2 I1 I2. apply CA in H1, H2.
    assert (j = i) by (destruct H1 as [(-> & _)|(_ & H1)]; [reflexivity|eapply r_alone; eauto]).
    assert (k = i) by (destruct H2 as [(-> & _)|(_ & H2)]; [reflexivity|eapply r_alone; eauto]). congruence.
  - intros j b m wk H. apply CA in H. destruct H as [(_ & E)|(N & H)]; [discriminate|]. destruct N. eapply r_alone; [exact P|exact H|exact I].
  - intros j b m h cur td. rewrite E1. cbn [send set_ch next]. split.
    + intros H. apply CA in H. destruct H as [(-> & E)|(N & H)]; [|destruct N; eapply r_alone; [exact P|exact H|exact I]].
      unfold p in E. injection E as -> -> -> -> ->. auto.
    + intros (E & -> & -> & ->). injection E as -> -> ->. apply CA. left. auto.
  - rewrite E1. exact (r_len _ _ _ _ _ P).
  - intros j cur td [= <- <- <-]. exists o, dn. rewrite E1. split; [exact (r_last _ _ _ _ _ P)|]. split; [apply move_object; exists x; auto|]. rewrite E3. auto.
  - split; [exact (r_nodup _ _ _ _ _ P)|]. split.
    + intros j o' H. split; [apply move_object; exact (r_obj _ _ _ _ _ P j o' H)|]. destruct (Nat.eq_dec j i) as [->|N].
      * exists p. split; [apply CA; auto|right; exact I].
      * exists Returned. split; [|auto]. apply CA. right. split; [exact N|]. apply (in_map fst) in H. cbn [fst] in H. destruct (r_ord _ _ _ _ _ P _ H); [congruence|assumption].
    + intros j q H Z. apply CA in H. destruct H as [(-> & _)|(N & H)]; [eapply pre_in; eauto|]. destruct Z as [->|W]; [now apply (r_ret _ _ _ _ _ P)|].
      destruct N. eapply r_alone; eauto. now destruct q.
  - intros c' C'. rewrite E1, E2, E3, E4. cbn [send set_ch next leases mem ch]. pose proof (r_ch _ _ _ _ _ P c' C') as K.
    destruct (Nat.eq_dec c' c) as [->|N].
    + rewrite upd_same.
      assert (LN : is_local kind c = false) by (unfold is_local; destruct (kind c); congruence).
      assert (D0 : due ord (next s) (c :: todo) c = next s). { unfold due. destruct in_dec as [_|Z]; [now rewrite LN|destruct Z; now left]. }
      assert (D1 : due ord (next s) todo c = S (next s)). { unfold due. destruct in_dec as [Z|_]; [contradiction|]. exact (r_len _ _ _ _ _ P). }
      assert (Lg : length (got (ch s c)) <= next s) by (rewrite <- D0; exact (ci_le _ _ _ _ _ _ _ _ K)).
      assert (LV : forall m y, live (mkChan (wire (ch s c) ++ [f]) (cache (ch s c)) (queue (ch s c)) (held (ch s c)) (acks (ch s c)) (got (ch s c)) y) m -> live (ch s c) m \/ m = next s).
      { intros m y [H|[H|H]]; [left; left; exact H|left; right; left; exact H|]. cbn [wire] in H. rewrite map_app in H. apply in_app_or in H. destruct H as [H|[H|[]]]; [left; right; right; exact H|right]. congruence. }
      assert (OV : forall m y, outstanding (mkChan (wire (ch s c) ++ [f]) (cache (ch s c)) (queue (ch s c)) (held (ch s c)) (acks (ch s c)) (got (ch s c)) y) m -> outstanding (ch s c) m \/ m = next s).
      { intros m y [H|H]; [destruct (LV _ _ H); [left; left; assumption|auto]|left; right; exact H]. }
      destruct K. rewrite D0 in *. constructor; cbn [up got queue wire held acks cache]; rewrite ?D1; auto.
      * rewrite map_app. cbn [map]. rewrite FID, app_assoc, ci_ids0. replace (S (next s) - length (got (ch s c))) with (S (next s - length (got (ch s c)))) by lia.
        rewrite seq_S. f_equal. f_equal. lia.
      * intros g H. apply in_app_or in H. destruct H as [H|[<-|[]]]; [now apply ci_frames0|].
        destruct (kind c) eqn:KC; [congruence| |]; [destruct (FS eq_refl) as (-> & _); reflexivity|rewrite (FT eq_refl)].
        split; [reflexivity|]. split; [reflexivity|]. exact (map_fst_nth _ _ _ _ (r_last _ _ _ _ _ P)).
      * intros Z. congruence.
      * intros m O. apply OV in O. destruct O as [O| ->]; [|auto]. destruct (ci_lease0 m O) as [H|(H & _)]; [auto|discriminate].
      * intros m O. apply OV in O. destruct O as [O| ->]; [auto|]. rewrite (r_len _ _ _ _ _ P). lia.
      * intros KC m O. apply LV in O. destruct O as [O| ->]; [auto|]. exists o. split; [now apply FS|]. exact (map_fst_nth _ _ _ _ (r_last _ _ _ _ _ P)).
    + rewrite upd_other by exact N.
      assert (D : due ord (next s) (c :: todo) c' = due ord (next s) todo c') by (destruct (due_shrink ord (next s) c todo c' (or_intror N)) as [D|(D & _)]; [exact D|congruence]).
      apply (ch_inv_due _ _ _ _ _ _ _ _ _ D) in K. destruct K. constructor; auto. intros m O. destruct (ci_lease0 m O) as [H|(H & _)]; [auto|discriminate].
Qed.

Lemma pre_shrink ord s i o c todo : pre ord s i o (c :: todo) -> kind c = InProcess -> pre ord s i o todo.
Proof.
  intros P KC. destruct P. constructor; auto.
  - destruct r_chans0 as (dn & ->). exists (dn ++ [c]). now rewrite <- app_assoc.
  - intros c' C'. specialize (r_ch0 c' C'). assert (LC : is_local kind c = true) by (unfold is_local; now rewrite KC).
    eapply ch_inv_due; [|exact r_ch0]. destruct (due_shrink ord (next s) c todo c' (or_introl LC)) as [D|(-> & _)]; [exact D|now rewrite !due_local].
Qed.

Lemma write_next_inv ord i o : forall todo s, pre ord s i o todo ->
  (existsb (is_shm kind) chans = true -> mem s (slot (next s)) = Some (next s, o)) ->
  exists w, inv ord (write_next kind s i (slot (next s)) (next s) (next s) o todo) w.
Proof.
  induction todo as [|c todo IH]; intros s P M; cbn [write_next].
  - exists None. now apply (pre_finish _ _ _ _ P).
  - destruct (kind c) eqn:KC.
    + apply IH; [now apply (pre_shrink _ _ _ _ _ _ P)|exact M].
    + exists (Some (i, c, todo)). apply (pre_send _ _ _ _ _ _ _ P); [congruence|exact M| |congruence]. intros _. split; [reflexivity|]. apply M.
      apply existsb_exists. exists c. split; [|unfold is_shm; now rewrite KC]. destruct (r_chans _ _ _ _ _ P) as (dn & CH). now apply (chans_once _ _ _ CH).
    + exists (Some (i, c, todo)). apply (pre_send _ _ _ _ _ _ _ P); [congruence|exact M|congruence|reflexivity].
Qed.

(** ** Leases *)

Lemma in_lease (s : st) c b d e : In (d, e) (leases (lease s c b)) <-> (d, e) = (c, b) \/ In (d, e) (leases s).
Proof.
  unfold lease. cbn [leases In]. rewrite filter_In. cbn [fst snd]. split.
  - intros [H|(H & _)]; [left; congruence|auto].
  - intros [H|H]; [left; congruence|]. destruct (Nat.eqb_spec d c); [destruct (Nat.eqb_spec e b)|]; [left; congruence|right; auto|right; auto].
Qed.

Lemma available_spec l b : available l b = true <-> forall c, ~ In (c, b) l.
Proof.
  unfold available. rewrite forallb_forall. split.
  - intros H c I. specialize (H _ I). cbn in H. rewrite Nat.eqb_refl in H. discriminate.
  - intros H [c e] I. cbn. destruct (Nat.eqb_spec e b) as [->|N]; [destruct (H c I)|reflexivity].
Qed.

(** ** The local delivery *)

Definition puts (o : Obj) (l : list nat) (s : st) : st :=
  fold_left (fun s c => if is_local kind c then put_local nbuf s c (next s) o else s) l s.

Lemma puts_spec o : forall l s, NoDup l ->
  next (puts o l s) = next s /\ calls (puts o l s) = calls s /\ mem (puts o l s) = mem s /\
  (forall c b, In (c, b) (leases (puts o l s)) <-> In (c, b) (leases s) \/ (In c l /\ is_local kind c = true /\ b = slot (next s))) /\
  (forall c, ~ (In c l /\ is_local kind c = true) -> ch (puts o l s) c = ch s c) /\
  (forall c, In c l -> is_local kind c = true ->
     ch (puts o l s) c = let x := ch s c in mkChan (wire x) (upd (cache x) (slot (next s)) (Some (next s, Val o))) (queue x ++ [next s]) (held x) (acks x) (got x) (up x)).
Proof.
  induction l as [|c l IH]; intros s ND; cbn [puts fold_left].
  - do 3 (split; [reflexivity|]). split; [cbn; intros; tauto|]. split; [reflexivity|intros c []].
  - apply NoDup_cons_iff in ND. destruct ND as (NI & ND). destruct (is_local kind c) eqn:LC.
    + set (s1 := put_local nbuf s c (next s) o). destruct (IH s1 ND) as (A1 & A2 & A3 & A4 & A5 & A6). fold (puts o l s1).
      assert (N1 : next s1 = next s) by reflexivity. rewrite A1, A2, A3. do 3 (split; [reflexivity|]). split; [|split].
      * intros d b. rewrite A4, N1. unfold s1, put_local. rewrite in_lease. cbn [set_ch leases In]. split.
        -- intros [[E|H]|(H1 & H2 & H3)]; [injection E as -> ->| |]; auto.
        -- intros [H|([<-|H1] & H2 & ->)]; auto.
      * intros d H. rewrite A5 by (intros (H1 & H2); apply H; split; [now right|exact H2]). unfold s1, put_local. cbn [lease set_ch ch]. apply upd_other. intros ->. apply H. split; [now left|exact LC].
      * intros d [<-|H1] H2.
        -- rewrite A5 by (intros (H & _); contradiction). unfold s1, put_local. cbn [lease set_ch ch]. apply upd_same.
        -- rewrite (A6 d H1 H2), N1. unfold s1, put_local. cbn [lease set_ch ch]. rewrite !upd_other by (intros ->; contradiction). reflexivity.
    + fold (puts o l s). destruct (IH s ND) as (A1 & A2 & A3 & A4 & A5 & A6). do 3 (split; [assumption|]). split; [|split].
      * intros d b. rewrite A4. split; intros [H|(H1 & H2 & H3)]; auto; [right; split; [now right|auto]|]. destruct H1 as [<-|H1]; [congruence|auto].
      * intros d H. apply A5. intros (H1 & H2). apply H. split; [now right|exact H2].
      * intros d [<-|H1] H2; [congruence|auto].
Qed.

Lemma firstn_app_le {A} k (l l' : list A) : k <= length l -> firstn k (l ++ l') = firstn k l.
Proof. intros H. rewrite firstn_app. replace (k - length l) with 0 by lia. cbn. apply app_nil_r. Qed.

Lemma nth_error_app_some {A} (l l' : list A) n x : nth_error l n = Some x -> nth_error (l ++ l') n = Some x.
Proof. intros H. rewrite nth_error_app1; [exact H|]. apply nth_error_Some. congruence. Qed.

Lemma NoDup_snoc {A} (l : list A) x : NoDup l -> ~ In x l -> NoDup (l ++ [x]).
Proof.
  intros N H. apply NoDup_rev in N. rewrite <- (rev_involutive (l ++ [x])). apply NoDup_rev. rewrite rev_app_distr. cbn. constructor; [|exact N].
  now rewrite <- in_rev.
Qed.

(** ** The section after the wait *)
Lemma go_inv ord s i o p : inv ord s None -> call_at s i p -> object s i o -> alone s i -> p <> Returned -> ~ writing p ->
  available (leases s) (slot (next s)) = true ->
  exists w, inv (ord ++ [(i, o)]) (go nbuf chans kind s i (slot (next s)) (next s) o) w.
Proof.
  intros I CA OB AL NR NW AV. rewrite available_spec in AV. pose proof (i_len _ _ _ I) as LEN. cbn in LEN.
  destruct (i_pub _ _ _ I) as (P1 & P2 & P3).
  assert (NI : ~ In i (map fst ord)).
  { intros H. apply in_map_iff in H. destruct H as ((j & o') & E & H). cbn in E. subst. destruct (P2 _ _ H) as (_ & q & Q1 & Q2).
    rewrite (call_at_fun _ _ _ _ Q1 CA) in Q2. tauto. }
  unfold go. fold (puts o chans s). destruct (puts_spec o chans s Hc) as (A1 & A2 & A3 & A4 & A5 & A6).
  set (s1 := puts o chans s) in *.
  set (s2 := if existsb (is_shm kind) chans then mkSt (running s1) (next s1) (leases s1) (upd (mem s1) (slot (next s)) (Some (next s1, o))) (calls s1) (ch s1) else s1).
  assert (B1 : next s2 = next s) by (unfold s2; destruct existsb; exact A1).
  assert (B2 : calls s2 = calls s) by (unfold s2; destruct existsb; exact A2).
  assert (B3 : leases s2 = leases s1) by (unfold s2; destruct existsb; reflexivity).
  assert (B4 : ch s2 = ch s1) by (unfold s2; destruct existsb; reflexivity).
  assert (BM : existsb (is_shm kind) chans = true -> mem s2 (slot (next s)) = Some (next s, o)) by (intros H; unfold s2; rewrite H; cbn [mem]; rewrite upd_same, A1; reflexivity).
  assert (BO : forall b, b <> slot (next s) -> mem s2 b = mem s b) by (intros b H; unfold s2; destruct existsb; cbn [mem]; [rewrite upd_other by exact H|]; now rewrite A3).
  (* outstanding messages are not in the slot *)
  assert (OUT : forall c m, In c chans -> outstanding (ch s c) m -> m < next s /\ slot m <> slot (next s) /\ next s < m + nbuf).
  { intros c m C O. pose proof (i_ch _ _ _ I c C) as K. cbn in K.
    assert (MN : m < next s). { rewrite <- LEN. eapply Nat.lt_le_trans; [eapply outstanding_lt; [|exact K|exact O]; lia|apply due_le; lia]. }
    assert (SN : slot m <> slot (next s)). { intros E. destruct (ci_lease _ _ _ _ _ _ _ _ K m O) as [H|(H & _)]; [|discriminate]. rewrite E in H. exact (AV _ H). }
    split; [exact MN|]. split; [exact SN|]. pose proof (ci_recent _ _ _ _ _ _ _ _ K m O) as R. rewrite LEN in R.
    destruct (Nat.eq_dec (next s) (m + nbuf)) as [E|E]; [|lia]. destruct SN. rewrite E. unfold OverlapModel.slot.
    replace (m + nbuf) with (m + 1 * nbuf) by lia. now rewrite Nat.mod_add by lia. }
  assert (P : pre (ord ++ [(i, o)]) s2 i o chans).
  { destruct OB as (x & X & OX). constructor.
    - exists x. rewrite B2. auto.
    - intros j q (y & Y1 & Y2) Q. apply (AL j q); [|exact Q]. exists y. rewrite B2 in Y1. auto.
    - rewrite map_app. cbn. apply NoDup_snoc; assumption.
    - intros j o' H. apply in_app_or in H. unfold object. rewrite B2. destruct H as [H|[E|[]]]; [exact (proj1 (P2 _ _ H))|injection E as <- <-; eauto].
    - intros j H. rewrite map_app in H. apply in_app_or in H. destruct H as [H|[<-|[]]]; [right|now left].
      apply in_map_iff in H. destruct H as ((j' & o') & E & H). cbn in E. subst. destruct (P2 _ _ H) as (_ & q & Q1 & Q2).
      unfold call_at. rewrite B2. destruct Q2 as [->|Q2]; [exact Q1|]. destruct q; cbn in Q2; try contradiction.
      apply (i_wr _ _ _ I) in Q1. destruct Q1 as (Q1 & _). discriminate.
    - intros j (y & Y1 & Y2). rewrite B2 in Y1. rewrite map_app. split.
      + apply in_or_app. left. apply (P3 j Returned); [exists y; auto|auto].
      + intros ->. apply NR. eapply call_at_fun; [exact CA|exists y; auto].
    - rewrite app_length, B1. cbn. lia.
    - rewrite B1, nth_error_app2, LEN, Nat.sub_diag by lia. reflexivity.
    - exists []. reflexivity.
    - intros c C. rewrite B1, B3, B4. pose proof (i_ch _ _ _ I c C) as K. cbn in K.
      assert (DK : due ord (next s) [] c = next s) by (unfold due; destruct in_dec as [[]|]; lia).
      assert (SEN : forall m o', nth_error (map snd ord) m = Some o' -> nth_error (map snd (ord ++ [(i, o)])) m = Some o').
      { intros m o' H. rewrite map_app. now apply nth_error_app_some. }
      assert (LG : length (got (ch s c)) <= length (map snd ord)) by (rewrite map_length, LEN, <- DK; exact (ci_le _ _ _ _ _ _ _ _ K)).
      destruct (is_local kind c) eqn:LC.
      + rewrite (A6 c C LC). cbn zeta. assert (KC : kind c = InProcess) by (unfold is_local in LC; now destruct (kind c)).
        assert (DL : length (ord ++ [(i, o)]) = S (next s)) by (rewrite app_length, LEN; cbn; lia).
        assert (OV : forall m y, outstanding (mkChan (wire (ch s c)) (upd (cache (ch s c)) (slot (next s)) (Some (next s, Val o))) (queue (ch s c) ++ [next s]) (held (ch s c)) (acks (ch s c)) (got (ch s c)) y) m -> outstanding (ch s c) m \/ m = next s).
        { intros m y [[H|[H|H]]|H]; [left; left; left; exact H| |left; left; right; right; exact H|left; right; exact H]. cbn [queue] in H. apply in_app_or in H. destruct H as [H|[<-|[]]]; [left; left; right; left; exact H|auto]. }
        destruct K. rewrite DK in *. destruct (ci_local0 KC) as (W0 & K0). constructor; cbn [up got queue wire held acks cache]; rewrite ?due_local, ?DL by exact LC; auto.
        * rewrite W0 in *. cbn [map] in *. rewrite app_nil_r in *. rewrite ci_ids0. replace (S (next s) - length (got (ch s c))) with (S (next s - length (got (ch s c)))) by lia.
          rewrite seq_S. f_equal. f_equal. lia.
        * rewrite map_app, firstn_app_le by exact LG. exact ci_got0.
        * rewrite W0. intros f [].
        * intros m O. left. apply A4. apply OV in O. destruct O as [O| ->]; [|right; auto]. destruct (ci_lease0 m O) as [H|(H & _)]; [auto|discriminate].
        * intros m O. apply OV in O. destruct O as [O| ->]; [|lia]. destruct (OUT c m C O) as (_ & _ & H). lia.
        * congruence.
        * intros m O. destruct (Nat.eq_dec m (next s)) as [->|N].
          -- exists (Val o). rewrite upd_same. split; [reflexivity|]. split; [congruence|]. rewrite map_app, nth_error_app2; rewrite map_length, LEN; [|lia]. rewrite Nat.sub_diag. reflexivity.
          -- assert (O' : held (ch s c) = Some m \/ In m (queue (ch s c))) by (destruct O as [O|O]; [auto|]; apply in_app_or in O; destruct O as [O|[O|[]]]; [auto|congruence]).
             destruct (ci_cache0 m O') as (h & H1 & H2). exists h. rewrite upd_other; [|apply (OUT c m C); left; destruct O'; [left|right; left]; assumption].
             split; [exact H1|]. destruct h; [|exact H2]. destruct H2. auto.
      + rewrite A5 by (intros (_ & Z); congruence).
        assert (DD : due (ord ++ [(i, o)]) (next s) chans c = next s) by (unfold due; destruct in_dec as [_|Z]; [now rewrite LC|contradiction]).
        destruct K. rewrite DK in *. constructor; rewrite ?DD; auto.
        * rewrite map_app, firstn_app_le by exact LG. exact ci_got0.
        * intros f F. specialize (ci_frames0 f F). destruct f; [exact ci_frames0|]. destruct ci_frames0 as (X1 & X2 & X3). auto.
        * intros m O. left. apply A4. destruct (ci_lease0 m O) as [H|(H & _)]; [auto|discriminate].
        * intros m O. rewrite app_length, LEN. destruct (OUT c m C O) as (_ & _ & H). cbn. lia.
        * intros KC m O. destruct (ci_mem0 KC m O) as (o' & H1 & H2). exists o'. rewrite BO; [auto|]. apply (OUT c m C). now left.
        * intros m O. destruct (ci_cache0 m O) as (h & H1 & H2). exists h. split; [exact H1|]. destruct h; [|exact H2]. destruct H2. auto. }
  destruct (forallb (is_local kind) chans) eqn:FL.
  - exists None. assert (PF : pre (ord ++ [(i, o)]) s2 i o []).
    { revert P. assert (G : forall l dn, chans = dn ++ l -> pre (ord ++ [(i, o)]) s2 i o l -> pre (ord ++ [(i, o)]) s2 i o []).
      { induction l as [|c l IH]; intros dn E Q; [exact Q|]. apply (IH (dn ++ [c])); [now rewrite <- app_assoc|]. apply (pre_shrink _ _ _ _ _ _ Q).
        rewrite forallb_forall in FL. assert (In c chans) by (rewrite E; apply in_or_app; cbn; auto). specialize (FL c H). unfold is_local in FL. now destruct (kind c). }
      exact (G chans [] eq_refl). }
    assert (NS : existsb (is_shm kind) chans = false).
    { destruct (existsb (is_shm kind) chans) eqn:E; [|reflexivity]. apply existsb_exists in E. destruct E as (c & C & E). rewrite forallb_forall in FL. specialize (FL c C).
      unfold is_local in FL. unfold is_shm in E. destruct (kind c); discriminate. }
    unfold s2 in PF. rewrite NS in PF. now apply (pre_finish _ _ _ _ PF).
  - fold s2. replace (next s1) with (next s2) by (rewrite B1; symmetry; exact A1). rewrite <- B1. apply write_next_inv; [exact P|]. rewrite B1. exact BM.
Qed.
(** ** One channel changes *)

Lemma inv_set_ch ord s w c x : inv ord s w ->
  (In c chans -> forall n todo ex, n <= length ord -> ch_inv ord n todo ex (leases s) (mem s) c (ch s c) -> ch_inv ord n todo ex (leases s) (mem s) c x) ->
  inv ord (set_ch s c x) w.
Proof.
  intros I H. pose proof (inv_len _ _ _ I) as L. destruct I as [A B C D E F G]. constructor; auto.
  intros d IN. cbn [set_ch next leases mem ch]. specialize (G d IN). destruct (Nat.eq_dec d c) as [->|N]; [rewrite upd_same; auto|now rewrite upd_other].
Qed.

Lemma available_free l c b b' : available l b' = true -> available (filter (fun x => negb ((fst x =? c) && (snd x =? b))) l) b' = true.
Proof. rewrite !available_spec. intros H d I. apply filter_In in I. exact (H d (proj1 I)). Qed.

Lemma free_calls (s : st) c b i p : call_at (free s c b) i p ->
  call_at s i p \/ exists m w, call_at s i (AtBuffer b m w) /\ p = AtBuffer b m true /\ available (leases (free s c b)) b = true.
Proof.
  unfold call_at, free. cbn [calls leases]. intros (x & H & <-). rewrite nth_error_map in H. destruct (nth_error (calls s) i) as [y|]; [|discriminate].
  cbn in H. injection H as <-. destruct (at_ y) eqn:AY; try (left; exists y; now rewrite ?AY).
  destruct ((b0 =? b) && _ && _) eqn:E; [|left; exists y; auto]. apply andb_prop in E. destruct E as (E & E2). apply andb_prop in E. destruct E as (E & _). apply Nat.eqb_eq in E. subst.
  right. exists m, woken. split; [exists y; auto|]. auto.
Qed.

Lemma free_calls' (s : st) c b i p : call_at s i p -> ~ (exists b m w, p = AtBuffer b m w) -> call_at (free s c b) i p.
Proof.
  intros (x & H & <-) N. unfold call_at, free. cbn [calls]. rewrite nth_error_map, H. cbn. eexists. split; [reflexivity|].
  destruct (at_ x) eqn:AX; try exact AX. destruct N. eauto.
Qed.

Lemma free_object (s : st) c b i o : object s i o -> object (free s c b) i o.
Proof.
  intros (x & H & <-). unfold object, free. cbn [calls]. rewrite nth_error_map, H. cbn. eexists. split; [reflexivity|].
  destruct (at_ x); try reflexivity. destruct (_ && _ && _); reflexivity.
Qed.

Lemma inv_free ord s w c b : inv ord s w -> (In c chans -> forall m, outstanding (ch s c) m -> slot m <> b) -> inv ord (free s c b) w.
Proof.
  intros I H. destruct I as [A B C D E (P1 & P2 & P3) G].
  assert (CI : forall i p, call_at (free s c b) i p -> inside p -> exists q, call_at s i q /\ inside q).
  { intros i p X Y. destruct (free_calls _ _ _ _ _ X) as [Z|(m & wk & Z & -> & _)]; [eauto|]. exists (AtBuffer b m wk). split; [exact Z|exact I]. }
  constructor; cbn [free next leases mem ch].
  - intros i j p q X Y X1 Y1. destruct (CI _ _ X X1) as (p' & U1 & U2). destruct (CI _ _ Y Y1) as (q' & V1 & V2). eapply A; eauto.
  - intros i b' m wk X. destruct (free_calls _ _ _ _ _ X) as [Z|(m' & wk' & Z & E1 & AV)].
    + destruct (B _ _ _ _ Z) as (X1 & X2 & X3). split; [exact X1|]. split; [exact X2|]. intros W. now apply available_free, X3.
    + injection E1 as -> -> ->. destruct (B _ _ _ _ Z) as (X1 & X2 & X3). auto.
  - intros i b' m h cur todo. rewrite <- C. split.
    + intros X. destruct (free_calls _ _ _ _ _ X) as [Z|(m' & wk' & Z & E1 & AV)]; [exact Z|discriminate].
    + intros X. apply free_calls'; [exact X|]. intros (? & ? & ? & ?). discriminate.
  - exact D.
  - intros i cur todo X. destruct (E i cur todo X) as (o & dn & X1 & X2 & X3 & X4 & X5). exists o, dn. split; [exact X1|]. split; [now apply free_object|]. auto.
  - split; [exact P1|]. split.
    + intros i o X. destruct (P2 i o X) as (X1 & p & X2 & X3). split; [now apply free_object|]. exists p. split; [|exact X3]. apply free_calls'; [exact X2|].
      intros (? & ? & ? & ->). destruct X3 as [X3|X3]; [discriminate|exact X3].
    + intros i p X Z. destruct (free_calls _ _ _ _ _ X) as [Y|(m' & wk' & Y & -> & AV)]; [eauto|]. destruct Z as [Z|Z]; [discriminate|destruct Z].
  - intros d IN. destruct (G d IN). constructor; auto. intros m O. destruct (ci_lease0 m O) as [X|X]; [left|now right].
    apply filter_In. split; [exact X|]. cbn [fst snd]. destruct (Nat.eqb_spec d c) as [->|N]; [|reflexivity].
    destruct (Nat.eqb_spec (slot m) b) as [Y|Y]; [|reflexivity]. destruct (H IN m O Y).
Qed.

Lemma seq_head a q n : a :: q = seq n (length (a :: q)) -> a = n /\ q = seq (S n) (length q).
Proof. cbn. intros [= -> H]. auto. Qed.

Lemma firstn_snoc {A} (l : list A) n o : nth_error l n = Some o -> firstn (S n) l = firstn n l ++ [o].
Proof. revert n. induction l as [|x l IH]; intros [|n]; cbn; try discriminate; [now intros [= ->]|]. intros H. now rewrite <- IH. Qed.

(** A frame is read. *)
Lemma ch_arrive ord n todo ex ls me c (x : chan) f w h : n <= length ord -> ch_inv ord n todo ex ls me c x -> wire x = f :: w ->
  match h with Val o => kind c <> SharedMemory /\ nth_error (map snd ord) (fid f) = Some o | View b => b = slot (fid f) /\ kind c = SharedMemory end ->
  ch_inv ord n todo ex ls me c (notify x w (fid f) (upd (cache x) (slot (fid f)) (Some (fid f, h)))).
Proof.
  intros L K W HH.
  assert (LF : live x (fid f)) by (right; right; rewrite W; now left).
  assert (LV : forall m, live (notify x w (fid f) (upd (cache x) (slot (fid f)) (Some (fid f, h)))) m -> live x m).
  { intros m [H|[H|H]]; cbn [notify held queue wire] in H; [left; exact H| |right; right; rewrite W; now right].
    apply in_app_or in H. destruct H as [H|[<-|[]]]; [right; left; exact H|exact LF]. }
  assert (OV : forall m, outstanding (notify x w (fid f) (upd (cache x) (slot (fid f)) (Some (fid f, h)))) m -> outstanding x m) by (intros m [H|H]; [left; auto|right; exact H]).
  assert (SL := fun m m' => outstanding_slots _ _ _ _ _ _ _ _ m m' L K).
  assert (NL : kind c <> InProcess) by (intros E; destruct (ci_local _ _ _ _ _ _ _ _ K E); congruence).
  destruct K. constructor; cbn [notify up got queue wire held acks cache]; auto.
  - rewrite <- app_assoc. rewrite W in ci_ids0. exact ci_ids0.
  - intros g G. apply ci_frames0. rewrite W. now right.
  - congruence.
  - intros m O. destruct (Nat.eq_dec m (fid f)) as [->|N]; [exists h; rewrite upd_same; auto|].
    assert (O' : held x = Some m \/ In m (queue x)) by (destruct O as [O|O]; [auto|]; apply in_app_or in O; destruct O as [O|[O|[]]]; [auto|congruence]).
    destruct (ci_cache0 m O') as (g & H1 & H2). exists g. rewrite upd_other; [auto|]. apply SL; [left; destruct O'; [left|right; left]; assumption|left; exact LF|exact N].
Qed.

(** A message is taken. *)
Lemma ch_take ord n todo ex ls me c (x : chan) m q o : n <= length ord -> ch_inv ord n todo ex ls me c x -> queue x = m :: q -> held x = None ->
  nth_error (map snd ord) m = Some o ->
  ch_inv ord n todo ex ls me c (mkChan (wire x) (cache x) q (Some m) (acks x) (got x ++ [Some o]) (up x)).
Proof.
  intros L K Q HN HO. set (y := mkChan _ _ _ _ _ _ _).
  assert (LV : forall m', live y m' -> live x m').
  { intros m' [H|[H|H]]; cbn [y held queue wire] in H; [injection H as <-; right; left; rewrite Q; now left|right; left; rewrite Q; now right|right; right; exact H]. }
  assert (OV : forall m', outstanding y m' -> outstanding x m') by (intros m' [H|H]; [left; auto|right; exact H]).
  assert (IDS := ci_ids _ _ _ _ _ _ _ _ K). rewrite Q in IDS. cbn [app] in IDS.
  set (D := due ord n todo c) in *. destruct (D - length (got x)) as [|d] eqn:ED; [discriminate|]. cbn [seq] in IDS. injection IDS as -> IDS.
  destruct K. fold D in ci_le0, ci_ids0. constructor; cbn [y up got queue wire held acks cache]; rewrite ?app_length; cbn [length]; fold D; auto.
  - lia.
  - rewrite IDS. f_equal; lia.
  - intros m' [= <-]. lia.
  - rewrite Nat.add_1_r, (firstn_snoc _ _ _ HO), map_app, <- ci_got0. reflexivity.
  - destruct ci_acks0 as (N1 & N2). split; [exact N1|]. intros m' H. destruct (N2 m' H). split; [lia|]. intros E. injection E as E. lia.
  - intros m' H. apply ci_cache0. rewrite Q. cbn. destruct H as [H|H]; [injection H as H|]; auto.
Qed.

(** A message is handled. *)
Lemma ch_release ord n todo ex ls me c (x : chan) m r : n <= length ord -> ch_inv ord n todo ex ls me c x -> held x = Some m ->
  (r = acks x \/ (r = acks x ++ [m] /\ kind c <> InProcess)) ->
  ch_inv ord n todo ex ls me c (mkChan (wire x) (upd (cache x) (slot m) None) (queue x) None r (got x) (up x)).
Proof.
  intros L K HM HR. set (y := mkChan _ _ _ _ _ _ _).
  assert (LM : live x m) by now left.
  assert (LV : forall m', live y m' -> live x m') by (intros m' [H|H]; [discriminate|right; exact H]).
  assert (OV : forall m', outstanding y m' -> outstanding x m').
  { intros m' [H|H]; [left; auto|]. cbn [y acks] in H. destruct HR as [->|(-> & _)]; [right; exact H|]. apply in_app_or in H. destruct H as [H|[<-|[]]]; [right; exact H|left; exact LM]. }
  assert (SL := fun m m' => outstanding_slots _ _ _ _ _ _ _ _ m m' L K).
  assert (QI : forall m', In m' (queue x) -> m' <> m).
  { intros m' H ->. assert (J : In m (queue x ++ map fid (wire x))) by (apply in_or_app; auto). rewrite (ci_ids _ _ _ _ _ _ _ _ K) in J. apply in_seq in J.
    pose proof (ci_held _ _ _ _ _ _ _ _ K m HM). lia. }
  destruct K. constructor; cbn [y up got queue wire held acks cache]; auto.
  - discriminate.
  - intros E. destruct (ci_local0 E) as (W & A). destruct HR as [->|(_ & N)]; [auto|contradiction].
  - destruct ci_acks0 as (N1 & N2). split.
    + destruct HR as [->|(-> & _)]; [exact N1|]. apply NoDup_snoc; [exact N1|]. intros H. now apply (N2 m H).
    + intros m' H. split; [|discriminate]. assert (J : In m' (acks x) \/ m' = m) by (destruct HR as [->|(-> & _)]; [auto|]; apply in_app_or in H; destruct H as [H|[<-|[]]]; auto).
      destruct J as [J| ->]; [now apply N2|]. apply ci_held0 in HM. lia.
  - intros m' [H|H]; [discriminate|]. destruct (ci_cache0 m' (or_intror H)) as (h & H1 & H2). exists h. rewrite upd_other; [auto|].
    apply SL; [left; right; left; exact H|left; exact LM|auto].
Qed.

Lemma ch_ack ord n todo ex ls me c (x : chan) m r : ch_inv ord n todo ex ls me c x -> acks x = m :: r ->
  ch_inv ord n todo ex ls me c (mkChan (wire x) (cache x) (queue x) (held x) r (got x) (up x)) /\
  ~ outstanding (mkChan (wire x) (cache x) (queue x) (held x) r (got x) (up x)) m.
Proof.
  intros K A. set (y := mkChan _ _ _ _ _ _ _).
  assert (OV : forall m', outstanding y m' -> outstanding x m') by (intros m' [H|H]; [left; exact H|right; rewrite A; now right]).
  assert (OUT : ~ outstanding y m).
  { destruct (ci_acks _ _ _ _ _ _ _ _ K) as (N1 & N2). rewrite A in N1. apply NoDup_cons_iff in N1.
    destruct (N2 m ltac:(rewrite A; now left)) as (X1 & X2). intros [[H|H]|H]; [contradiction| |exact (proj1 N1 H)].
    assert (J : In m (queue x ++ map fid (wire x))) by (apply in_or_app; exact H). rewrite (ci_ids _ _ _ _ _ _ _ _ K) in J. apply in_seq in J. lia. }
  split; [|exact OUT]. destruct K. constructor; auto.
  - intros E. destruct (ci_local0 E) as (_ & H). rewrite H in A. discriminate.
  - destruct ci_acks0 as (N1 & N2). rewrite A in N1. apply NoDup_cons_iff in N1. split; [exact (proj2 N1)|]. intros m' H. apply N2. rewrite A. now right.
Qed.

Lemma inv_nowriter ord s w i p : inv ord s w -> call_at s i p -> alone s i -> ~ writing p -> w = None.
Proof.
  intros I CA AL NW. destruct w as [[[j cur] todo]|]; [|reflexivity].
  assert (H : call_at s j (AtDrain (slot (next s)) (next s) (next s) cur todo)) by (apply (i_wr _ _ _ I); auto).
  assert (j = i) by (eapply AL; [exact H|exact Logic.I]). subst. rewrite (call_at_fun _ _ _ _ CA H) in NW. destruct NW. exact Logic.I.
Qed.

Lemma enter_inv ord s w i o p : inv ord s w -> call_at s i p -> object s i o -> alone s i -> p <> Returned -> ~ inside p ->
  exists ext w', inv (ord ++ ext) (enter nbuf chans kind s i o) w'.
Proof.
  intros I CA OB AL NR NI. assert (NW : ~ writing p) by (now destruct p). pose proof (inv_nowriter _ _ _ _ _ I CA AL NW) as ->.
  unfold enter. destruct (available (leases s) (slot (next s))) eqn:AV.
  - exists [(i, o)]. now apply (go_inv _ _ _ _ _ I CA).
  - exists [], None. rewrite app_nil_r. destruct CA as (x & X & XP).
    set (q := AtBuffer (slot (next s)) (next s) false). destruct (move_rest s i q) as (_ & E1 & E2 & E3 & E4).
    assert (CM : forall j r, call_at (move s i q) j r <-> (j = i /\ r = q) \/ (j <> i /\ call_at s j r)) by (intros; now apply (move_at _ _ _ x)).
    assert (AT : forall j r, call_at (move s i q) j r -> inside r -> j = i /\ r = q).
    { intros j r H IN. apply CM in H. destruct H as [H|(N & H)]; [exact H|]. destruct N. eapply AL; eauto. }
    destruct I as [A B C D E (P1 & P2 & P3) G]. constructor; rewrite ?E1, ?E2, ?E3, ?E4; auto.
    + intros j k r r' H H' IN IN'. destruct (AT _ _ H IN). destruct (AT _ _ H' IN'). congruence.
    + intros j b m wk H. destruct (AT _ _ H Logic.I) as (-> & E0). unfold q in E0. injection E0 as -> -> ->. split; [reflexivity|]. split; [reflexivity|discriminate].
    + intros j b m h cur todo. split; [|intros (? & _); discriminate]. intros H. destruct (AT _ _ H Logic.I) as (_ & E0). discriminate.
    + discriminate.
    + split; [exact P1|]. split.
      * intros j o' H. destruct (P2 j o' H) as (X1 & r & X2 & X3). split; [now apply move_object|]. exists r. split; [|exact X3]. apply CM. right. split; [|exact X2].
        intros ->. assert (r = p) by (eapply call_at_fun; [exact X2|exists x; auto]). subst. tauto.
      * intros j r H Z. apply CM in H. destruct H as [(_ & ->)|(_ & H)]; [destruct Z as [Z|Z]; [discriminate|destruct Z]|eauto].
Qed.

Lemma step_inv ord s w a s' : inv ord s w -> orderly_step s a -> step nbuf chans kind s a = Some s' -> exists ext w', inv (ord ++ ext) s' w'.
Proof.
  intros I OS ST. pose proof (inv_len _ _ _ I) as LEN. assert (KEEP : forall s1 w1, inv ord s1 w1 -> exists ext w', inv (ord ++ ext) s1 w') by (intros s1 w1 H; exists [], w1; now rewrite app_nil_r).
  destruct a as [o|i|i|i|i|i| | |c|c|c|c]; cbn [step orderly_step] in *.
  - (* Call *) injection ST as <-. apply (KEEP _ w). eapply inv_ext; eauto.
    + intros i p IN (x & H & <-). cbn in H. destruct (Nat.lt_ge_cases i (length (calls s))) as [L|L]; [rewrite nth_error_app1 in H by exact L; exists x; auto|].
      rewrite nth_error_app2 in H by exact L. destruct (i - length (calls s)) as [|[|k]]; try discriminate. injection H as <-. destruct IN.
    + intros i p _ (x & H & E). exists x. split; [now apply nth_error_app_some|exact E].
    + intros i o' (x & H & E). exists x. split; [now apply nth_error_app_some|exact E].
    + intros i. split; intros (x & H & E).
      * cbn in H. destruct (Nat.lt_ge_cases i (length (calls s))) as [L|L]; [rewrite nth_error_app1 in H by exact L; exists x; auto|].
        rewrite nth_error_app2 in H by exact L. destruct (i - length (calls s)) as [|[|k]]; try discriminate. injection H as <-. discriminate.
      * exists x. split; [now apply nth_error_app_some|exact E].
  - (* Start *) destruct (nth_error (calls s) i) as [[o p l]|] eqn:H; [|discriminate]. destruct p; try discriminate.
    assert (CA : call_at s i Called) by (eexists; split; [exact H|reflexivity]). assert (OB : object s i o) by (eexists; split; [exact H|reflexivity]).
    destruct (running s); injection ST as <-.
    + apply (enter_inv _ _ _ _ _ _ I CA OB OS); [discriminate|intros []].
    + apply (KEEP _ w). apply (inv_move _ _ _ _ _ _ I CA); try discriminate; intros [].
  - (* Wake *) destruct (nth_error (calls s) i) as [[o p l]|] eqn:H; [|discriminate]. destruct p as [|[|]|b m [|]| | |]; try discriminate.
    + assert (CA : call_at s i (AtGate true)) by (eexists; split; [exact H|reflexivity]). assert (OB : object s i o) by (eexists; split; [exact H|reflexivity]).
      injection ST as <-. apply (enter_inv _ _ _ _ _ _ I CA OB OS); [discriminate|intros []].
    + assert (CA : call_at s i (AtBuffer b m true)) by (eexists; split; [exact H|reflexivity]). assert (OB : object s i o) by (eexists; split; [exact H|reflexivity]).
      injection ST as <-. destruct (i_buf _ _ _ I _ _ _ _ CA) as (-> & -> & AV). pose proof (inv_nowriter _ _ _ _ _ I CA OS (fun x => x)) as ->.
      exists [(i, o)]. apply (go_inv _ _ _ _ _ I CA OB OS); [discriminate|intros []|auto].
  - (* Drained *) destruct (nth_error (calls s) i) as [[o p l]|] eqn:H; [|discriminate]. destruct p as [| | |b m h c todo| |]; try discriminate.
    assert (CA : call_at s i (AtDrain b m h c todo)) by (eexists; split; [exact H|reflexivity]). assert (OB : object s i o) by (eexists; split; [exact H|reflexivity]).
    injection ST as <-. pose proof (proj1 (i_wr _ _ _ I _ _ _ _ _ _) CA) as (-> & -> & -> & ->).
    destruct (i_cur _ _ _ I _ _ _ eq_refl) as (o' & dn & N & OB' & CH & KC & MM).
    assert (o' = o). { destruct OB as (y & Y1 & Y2). destruct OB' as (z & Z1 & Z2). congruence. } subst o'.
    set (s1 := lease s c (slot (next s))). pose proof (i_pub _ _ _ I) as (P1 & P2 & P3). pose proof (i_len _ _ _ I) as LN. cbn in LN.
    assert (P : pre ord s1 i o todo).
    { constructor; auto.
      - intros j p X Y. eapply (i_one _ _ _ I); [exact X|exact CA|exact Y|exact Logic.I].
      - intros j o' X. exact (proj1 (P2 j o' X)).
      - intros j X. apply in_map_iff in X. destruct X as ((j' & o') & E & X). cbn in E. subst. destruct (P2 _ _ X) as (_ & q & Q1 & Q2). destruct Q2 as [->|Q2]; [right; exact Q1|left].
        eapply (i_one _ _ _ I); [exact Q1|exact CA|now destruct q|exact Logic.I].
      - intros j X. split; [apply (P3 j Returned); [exact X|auto]|]. intros ->. pose proof (call_at_fun _ _ _ _ CA X). discriminate.
      - exists (dn ++ [c]). now rewrite <- app_assoc.
      - intros d IN. pose proof (i_ch _ _ _ I d IN) as K. cbn in K. destruct K. constructor; auto. intros m O. left. unfold s1. apply in_lease. cbn [lease next].
        destruct (ci_lease0 m O) as [X|(E & ->)]; [auto|]. injection E as ->. auto. }
    destruct (write_next_inv ord i o todo s1 P MM) as (w' & W). exact (KEEP _ _ W).
  - (* GiveUp *) destruct (nth_error (calls s) i) as [[o p [|]]|] eqn:H; try discriminate. 
    assert (X : exists l, s' = set_calls s (set_nth i (mkCall o p l) (calls s))) by (destruct p; try discriminate; injection ST as <-; eauto).
    destruct X as (l & ->). clear ST. apply (KEEP _ w).
    assert (CM : forall j q, call_at (set_calls s (set_nth i (mkCall o p l) (calls s))) j q <-> call_at s j q).
    { intros j q. unfold call_at. cbn [set_calls calls]. destruct (Nat.eq_dec j i) as [->|N]; [|now rewrite nth_set_other by congruence].
      rewrite (nth_set_same _ _ _ _ H), H. split; intros (y & [= <-] & <-); eexists; split; reflexivity. }
    eapply inv_ext; eauto.
    + intros j q _. apply CM.
    + intros j q _. apply CM.
    + intros j o' (y & Y1 & Y2). unfold object. cbn [set_calls calls]. destruct (Nat.eq_dec j i) as [->|N]; [|rewrite nth_set_other by congruence; eauto].
      rewrite (nth_set_same _ _ _ _ H). rewrite H in Y1. injection Y1 as <-. eexists. split; [reflexivity|exact Y2].
  - (* Cancel *) destruct (nth_error (calls s) i) as [[o p [|]]|] eqn:H; try discriminate.
    assert (CA : call_at s i p) by (eexists; split; [exact H|reflexivity]).
    assert (X : s' = move s i Cancelled /\ p <> Returned) by (destruct p; try discriminate; injection ST as <-; (split; [reflexivity|discriminate])). destruct X as (-> & NR).
    apply (KEEP _ w). apply (inv_move _ _ _ _ _ _ I CA (OS _ CA) NR); [intros []|discriminate].
  - (* Pause *) injection ST as <-. apply (KEEP _ w). eapply inv_ext; eauto. reflexivity.
  - (* Resume *) injection ST as <-. apply (KEEP _ w).
    assert (CM : forall j q, ~ (exists z, q = AtGate z) -> (call_at (mkSt true (next s) (leases s) (mem s) (map (fun x => match at_ x with AtGate _ => mkCall (obj x) (AtGate true) (late x) | _ => x end) (calls s)) (ch s)) j q <-> call_at s j q)).
    { intros j q N. unfold call_at. cbn [calls]. rewrite nth_error_map. destruct (nth_error (calls s) j) as [y|]; cbn; [|split; intros (z & Z & _); discriminate]. split.
      - intros (z & [= <-] & E). exists y. split; [reflexivity|]. destruct (at_ y) eqn:AY; cbn in E; rewrite ?AY in E; auto. subst. destruct N. eauto.
      - intros (z & [= <-] & E). eexists. split; [reflexivity|]. destruct (at_ y) eqn:AY; cbn; rewrite ?AY; auto. subst. destruct N. eauto. }
    eapply inv_ext; eauto.
    + intros j q IN. apply CM. intros (z & ->). destruct IN.
    + intros j q IN. apply CM. intros (z & ->). destruct IN.
    + intros j o (y & Y1 & Y2). unfold object. cbn [calls]. rewrite nth_error_map, Y1. cbn. eexists. split; [reflexivity|]. now destruct (at_ y).
    + intros j. apply CM. intros (z & ?). discriminate.
  - (* Arrive *) destruct (up (ch s c)) eqn:U; [|discriminate]. destruct (wire (ch s c)) as [|f wr] eqn:W; [discriminate|].
    assert (X : exists x, s' = set_ch s c x /\ (In c chans -> forall n todo ex, n <= length ord -> ch_inv ord n todo ex (leases s) (mem s) c (ch s c) -> ch_inv ord n todo ex (leases s) (mem s) c x)).
    { destruct f as [m|m h o].
      - destruct (mem s (slot m)) as [[h o]|] eqn:M; injection ST as <-; eexists; (split; [reflexivity|]); intros IN n todo ex L K;
          assert (KC := ci_frames _ _ _ _ _ _ _ _ K (FShm m) ltac:(rewrite W; now left)); cbn in KC;
          destruct (ci_mem _ _ _ _ _ _ _ _ K KC m) as (o' & M1 & M2); try (right; right; rewrite W; now left); [|congruence].
        rewrite M in M1. injection M1 as -> ->. rewrite Nat.eqb_refl. apply (ch_arrive _ _ _ _ _ _ _ _ (FShm m) wr (View (slot m)) L K W). cbn. auto.
      - injection ST as <-. eexists. split; [reflexivity|]. intros IN n todo ex L K. destruct (ci_frames _ _ _ _ _ _ _ _ K (FTcp m h o) ltac:(rewrite W; now left)) as (KC & -> & NO).
        rewrite Nat.eqb_refl. apply (ch_arrive _ _ _ _ _ _ _ _ (FTcp m m o) wr (Val o) L K W). cbn. split; [congruence|exact NO]. }
    destruct X as (x & -> & X). apply (KEEP _ w). now apply inv_set_ch.
  - (* Take *) destruct (queue (ch s c)) as [|m q] eqn:Q; [discriminate|]. destruct (held (ch s c)) as [|] eqn:HD; [discriminate|].
    assert (X : exists x, s' = set_ch s c x /\ (In c chans -> forall n todo ex, n <= length ord -> ch_inv ord n todo ex (leases s) (mem s) c (ch s c) -> ch_inv ord n todo ex (leases s) (mem s) c x)).
    { destruct (cache (ch s c) (slot m)) as [[m' h]|] eqn:KA.
      - destruct (m' =? m) eqn:EM; injection ST as <-; eexists; (split; [reflexivity|]); intros IN n todo ex L K;
          destruct (ci_cache _ _ _ _ _ _ _ _ K m) as (h' & H1 & H2); try (right; rewrite Q; now left); rewrite KA in H1; injection H1 as -> ->; [|rewrite Nat.eqb_refl in EM; discriminate].
        destruct h' as [o|b].
        + exact (ch_take _ _ _ _ _ _ _ _ _ _ _ L K Q HD (proj2 H2)).
        + destruct H2 as (-> & KC). destruct (ci_mem _ _ _ _ _ _ _ _ K KC m) as (o & M1 & M2); [right; left; rewrite Q; now left|]. rewrite M1.
          exact (ch_take _ _ _ _ _ _ _ _ _ _ _ L K Q HD M2).
      - injection ST as <-. eexists. split; [reflexivity|]. intros IN n todo ex L K.
        destruct (ci_cache _ _ _ _ _ _ _ _ K m) as (h' & H1 & H2); [right; rewrite Q; now left|]. congruence. }
    destruct X as (x & -> & X). apply (KEEP _ w). now apply inv_set_ch.
  - (* Release *) destruct (held (ch s c)) as [m|] eqn:HD; [|discriminate].
    assert (CACHE : In c chans -> exists h, cache (ch s c) (slot m) = Some (m, h)).
    { intros IN. destruct (ci_cache _ _ _ _ _ _ _ _ (i_ch _ _ _ I c IN) m (or_introl HD)) as (h & H & _). eauto. }
    assert (BAD : forall x, (~ In c chans) -> inv ord (set_ch s c x) w) by (intros x N; apply inv_set_ch; [exact I|intros; contradiction]).
    destruct (cache (ch s c) (slot m)) as [[m' h]|] eqn:KA.
    + destruct (m' =? m) eqn:EM.
      * destruct (is_local kind c) eqn:LC; injection ST as <-; apply (KEEP _ w).
        -- set (x := mkChan _ _ _ _ _ _ _). apply inv_free.
           ++ apply inv_set_ch; [exact I|]. intros IN n todo ex L K. unfold x. apply (ch_release _ _ _ _ _ _ _ _ _ _ L K HD). now left.
           ++ intros IN m2 O. cbn [set_ch ch] in O. rewrite upd_same in O. pose proof (i_ch _ _ _ I c IN) as K.
              assert (KC : kind c = InProcess) by (unfold is_local in LC; now destruct (kind c)). destruct (ci_local _ _ _ _ _ _ _ _ K KC) as (W0 & A0).
              assert (J : In m2 (queue (ch s c))). { destruct O as [[O|[O|O]]|O]; unfold x in O; cbn in O; [discriminate|exact O|rewrite W0 in O; destruct O|rewrite A0 in O; destruct O]. }
              eapply outstanding_slots; [exact LEN|exact K|left; right; left; exact J|left; left; exact HD|].
              intros ->. pose proof (ci_held _ _ _ _ _ _ _ _ K m HD). assert (J2 : In m (queue (ch s c) ++ map fid (wire (ch s c)))) by (apply in_or_app; auto).
              rewrite (ci_ids _ _ _ _ _ _ _ _ K) in J2. apply in_seq in J2. lia.
        -- apply inv_set_ch; [exact I|]. intros IN n todo ex L K. apply (ch_release _ _ _ _ _ _ _ _ _ _ L K HD). right. split; [reflexivity|]. unfold is_local in LC. now destruct (kind c).
      * injection ST as <-. apply (KEEP _ w), BAD. intros IN. destruct (CACHE IN) as (h' & E). injection E as -> _. rewrite Nat.eqb_refl in EM. discriminate.
    + injection ST as <-. apply (KEEP _ w), BAD. intros IN. destruct (CACHE IN) as (h' & E). discriminate.
  - (* Ack *) destruct (acks (ch s c)) as [|m r] eqn:A; [discriminate|]. injection ST as <-. apply (KEEP _ w). set (x := mkChan _ _ _ _ _ _ _). apply inv_free.
    + apply inv_set_ch; [exact I|]. intros IN n todo ex L K. exact (proj1 (ch_ack _ _ _ _ _ _ _ _ _ _ K A)).
    + intros IN m2 O. cbn [set_ch ch] in O. rewrite upd_same in O. pose proof (i_ch _ _ _ I c IN) as K. destruct (ch_ack _ _ _ _ _ _ _ _ _ _ K A) as (_ & NO).
      eapply outstanding_slots; [exact LEN|exact K| |right; rewrite A; now left|intros ->; exact (NO O)].
      destruct O as [O|O]; [left; exact O|right; rewrite A; now right].
Qed.

Lemma run_inv l : forall ord s w s', inv ord s w -> orderly nbuf chans kind s l -> run nbuf chans kind s l = Some s' -> exists ext w', inv (ord ++ ext) s' w'.
Proof.
  induction l as [|a l IH]; intros ord s w s' I O R; cbn [run orderly] in *.
  - injection R as <-. exists [], w. now rewrite app_nil_r.
  - destruct O as (O1 & O2). destruct (step nbuf chans kind s a) as [s1|] eqn:S1; [|discriminate]. destruct (step_inv _ _ _ _ _ I O1 S1) as (e1 & w1 & I1).
    destruct (IH _ _ _ _ I1 (O2 _ eq_refl) R) as (e2 & w2 & I2). exists (e1 ++ e2), w2. now rewrite app_assoc.
Qed.
End Proofs.
