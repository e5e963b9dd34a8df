(** Lemmas about ShmModel. *)
From Coq Require Import List NArith Arith Bool Lia.
From Coq Require Import Strings.Byte.
From Verif Require Import CodecModel CodecProofs MarshalModel MarshalProofs ShmModel.
Import ListNotations.

(** A segment as [shm_create] lays it out: [n] slots of [bs] bytes, described by its own header. *)
Definition seg_wf (c : shm_ctx) (seg : segment) : Prop :=
  c = shm_open seg /\ length seg = num_buffers c * buf_size c /\ 16 <= buf_size c /\ 0 < num_buffers c.

Lemma assign_len a b d m m' : assign a b d m = Ok m' -> a <= b ->
  length m' = length m.
Proof.
  unfold assign. destruct (Nat.eqb_spec (length (slice a b m)) (length d)) as [E|]; [|discriminate].
  intros H Hab. assert (m' = firstn a m ++ d ++ skipn (a + length d) m) by congruence. subst m'.
  unfold slice in E. rewrite firstn_length, skipn_length in E.
  rewrite !app_length, firstn_length, skipn_length. lia.
Qed.

Lemma mul_ge a b : 0 < a -> b <= a * b.
Proof. intros H. destruct a; [lia|]. cbn [Nat.mul]. lia. Qed.

Lemma repeat_skipn {A} (x : A) n m : skipn n (repeat x m) = repeat x (m - n).
Proof.
  revert m; induction n as [|n IH]; intros m; [now rewrite Nat.sub_0_r|].
  destruct m as [|m]; [reflexivity|]. cbn [skipn repeat Nat.sub]. apply IH.
Qed.

Lemma repeat_firstn {A} (x : A) n m : firstn n (repeat x m) = repeat x (min n m).
Proof.
  revert m; induction n as [|n IH]; intros m; [reflexivity|].
  destruct m as [|m]; [reflexivity|]. cbn [firstn repeat Nat.min]. now rewrite IH.
Qed.

Lemma shm_create_shape n b seg : 0 < n -> shm_create n b = Some seg ->
  exists nb sb, length nb = 8 /\ length sb = 8 /\ bytes_to_uint nb = N.of_nat n /\
    bytes_to_uint sb = N.of_nat (b + 16 * n) /\
    seg = nb ++ sb ++ repeat x30 (n * (b + 16 * n) - 16).
Proof.
  intros Hn. unfold shm_create.
  destruct (uint64_to_bytes (N.of_nat n)) as [nb|] eqn:E1; [|discriminate].
  destruct (uint64_to_bytes (N.of_nat (b + 16 * n))) as [sb|] eqn:E2; [|discriminate].
  apply uint64_roundtrip in E1 as [L1 V1]. apply uint64_roundtrip in E2 as [L2 V2].
  set (tot := n * (b + 16 * n)).
  assert (Htot : 16 <= tot) by (pose proof (mul_ge n (b + 16 * n) Hn); lia).
  rewrite assign_ok by (rewrite ?repeat_length; lia). cbn [firstn app]. rewrite repeat_skipn.
  rewrite assign_ok by (rewrite ?app_length, ?repeat_length; lia).
  intros H. exists nb, sb. repeat split; auto.
  assert (E : seg = firstn 8 (nb ++ repeat x30 (tot - 8)) ++ sb ++ skipn 16 (nb ++ repeat x30 (tot - 8))) by congruence.
  rewrite E. rewrite firstn_app, L1, Nat.sub_diag. rewrite <- L1, firstn_all, L1. cbn [firstn]. rewrite app_nil_r.
  rewrite skipn_app, L1, skipn_all2 by lia. cbn [app Nat.sub]. rewrite repeat_skipn.
  do 3 f_equal. lia.
Qed.

Lemma shm_create_some n b : 0 < n -> (N.of_nat (b + 16 * n) < 2 ^ 64)%N -> exists seg, shm_create n b = Some seg.
Proof.
  intros Hn H. unfold shm_create.
  assert (Hn64 : (N.of_nat n < 2 ^ 64)%N) by lia.
  apply uint64_defined in Hn64 as [nb E1]. apply uint64_defined in H as [sb E2]. rewrite E1, E2.
  apply uint64_roundtrip in E1 as [L1 _]. apply uint64_roundtrip in E2 as [L2 _].
  assert (Htot : 16 <= n * (b + 16 * n)) by (pose proof (mul_ge n (b + 16 * n) Hn); lia).
  rewrite assign_ok by (rewrite ?repeat_length; lia).
  rewrite assign_ok; eauto; try lia.
  cbn [firstn app]. rewrite app_length, skipn_length, repeat_length. lia.
Qed.

Lemma shm_create_none n b : (2 ^ 64 <= N.of_nat (b + 16 * n))%N -> shm_create n b = None.
Proof.
  intros H. unfold shm_create. pose proof (uint64_none _ H) as E. cbv zeta. revert E.
  generalize (uint64_to_bytes (N.of_nat (b + 16 * n))) (uint64_to_bytes (N.of_nat n)).
  intros o1 o2 ->. destruct o2; reflexivity.
Qed.

Lemma shm_create_open n b seg : 0 < n -> shm_create n b = Some seg ->
  shm_open seg = {| num_buffers := n; buf_size := b + 16 * n |} /\ length seg = n * (b + 16 * n).
Proof.
  intros Hn H. destruct (shm_create_shape n b seg Hn H) as (nb & sb & L1 & L2 & V1 & V2 & E).
  assert (Htot : 16 <= n * (b + 16 * n)) by (pose proof (mul_ge n (b + 16 * n) Hn); lia).
  split.
  - unfold shm_open. subst seg. f_equal.
    + change (nb ++ sb ++ repeat x30 (n * (b + 16 * n) - 16)) with ([] ++ nb ++ (sb ++ repeat x30 (n * (b + 16 * n) - 16))).
      rewrite (slice_app_exact [] nb) by (cbn [length]; lia). rewrite V1. apply Nat2N.id.
    + rewrite (slice_app_exact nb sb) by lia. rewrite V2. apply Nat2N.id.
  - subst seg. rewrite !app_length, repeat_length. lia.
Qed.

Lemma shm_create_wf n b seg : 0 < n -> shm_create n b = Some seg -> seg_wf (shm_open seg) seg.
Proof.
  intros Hn H. destruct (shm_create_open n b seg Hn H) as [E L]. unfold seg_wf. rewrite E. cbn. repeat split; lia.
Qed.

(** ** Layout *)

Lemma slot_within (c : shm_ctx) i n : n = num_buffers c -> 16 <= buf_size c -> i < n ->
  16 <= slot_start c i /\ slot_start c i <= slot_stop c i /\ slot_stop c i <= n * buf_size c.
Proof.
  intros -> Hb Hi. unfold slot_start, slot_stop. repeat split; try lia.
  replace (i * buf_size c + buf_size c) with (S i * buf_size c) by (cbn; lia).
  apply Nat.mul_le_mono_r. lia.
Qed.

Lemma slot_disjoint (c : shm_ctx) i j : i < j -> slot_stop c i <= slot_start c j.
Proof.
  intros H. unfold slot_start, slot_stop.
  replace (i * buf_size c + buf_size c) with (S i * buf_size c) by (cbn; lia).
  pose proof (Nat.mul_le_mono_r (S i) j (buf_size c) H). lia.
Qed.

Lemma slot_some c seg i : seg_wf c seg -> i < num_buffers c ->
  exists m, slot c i seg = Some m /\ length m = buf_size c - 16.
Proof.
  intros (Hc & Hl & Hb & Hn) Hi. unfold slot. destruct (Nat.ltb_spec i (num_buffers c)); [|lia].
  eexists. split; [reflexivity|].
  destruct (slot_within c i _ eq_refl Hb Hi) as (H1 & H2 & H3).
  rewrite slice_length by lia. unfold slot_start, slot_stop in *. lia.
Qed.

Lemma slot_inv c seg i m : slot c i seg = Some m -> i < num_buffers c /\ m = slice (slot_start c i) (slot_stop c i) seg.
Proof.
  unfold slot. destruct (Nat.ltb_spec i (num_buffers c)); [|discriminate]. intros [= <-]. auto.
Qed.

Lemma slice_ext a b (s s' : bytes) : (forall k, a <= k < b -> nth_error s k = nth_error s' k) ->
  length s = length s' -> slice a b s = slice a b s'.
Proof.
  intros H L. unfold slice.
  assert (G : forall n (l l' : bytes), length l = length l' -> (forall k, k < n -> nth_error l k = nth_error l' k) -> firstn n l = firstn n l').
  { induction n as [|n IH]; intros l l' Hl Hk; [reflexivity|].
    destruct l as [|x l], l' as [|y l']; try discriminate; [reflexivity|].
    pose proof (Hk 0 ltac:(lia)) as H0. cbn in H0. injection H0 as ->.
    cbn [firstn]. f_equal. apply IH; [now injection Hl|]. intros k Hkn. apply (Hk (S k)). lia. }
  apply G; [now rewrite !skipn_length, L|].
  intros k Hk. assert (N : forall l : bytes, nth_error (skipn a l) k = nth_error l (a + k)).
  { clear. induction a as [|a IH]; intros l; [reflexivity|]. destruct l as [|x l]; [now destruct k|]. cbn. apply IH. }
  rewrite !N. apply H. lia.
Qed.

Lemma nth_error_splice (a d s : bytes) p k : length a = p -> p + length d <= length s -> (k < p -> nth_error a k = nth_error s k) ->
  (k < p \/ p + length d <= k) ->
  nth_error (a ++ d ++ skipn (p + length d) s) k = nth_error s k.
Proof.
  intros La Ls Ha [H|H].
  - rewrite nth_error_app1 by lia. auto.
  - rewrite !nth_error_app2 by lia.
    assert (N : forall q j (l : bytes), nth_error (skipn q l) j = nth_error l (q + j)).
    { clear. induction q as [|q IH]; intros j l; [reflexivity|]. destruct l as [|x l]; [now destruct j|]. cbn. apply IH. }
    rewrite N. f_equal. lia.
Qed.

Lemma nth_error_firstn_lt {A} n (l : list A) k : k < n -> nth_error (firstn n l) k = nth_error l k.
Proof.
  revert l k; induction n as [|n IH]; intros l k H; [lia|].
  destruct l as [|x l]; [now destruct k|]. destruct k as [|k]; [reflexivity|]. cbn. apply IH. lia.
Qed.

Lemma set_slot_outside c seg i d k : seg_wf c seg -> i < num_buffers c -> length d = buf_size c - 16 ->
  (k < slot_start c i \/ slot_stop c i <= k) -> nth_error (set_slot c i d seg) k = nth_error seg k.
Proof.
  intros (Hc & Hl & Hb & Hn) Hi Hd Hk.
  destruct (slot_within c i _ eq_refl Hb Hi) as (H1 & H2 & H3).
  assert (Hst : slot_start c i + length d = slot_stop c i) by (unfold slot_start, slot_stop in *; lia).
  unfold set_slot. apply nth_error_splice.
  - rewrite firstn_length. lia.
  - lia.
  - intros. now apply nth_error_firstn_lt.
  - rewrite Hst. tauto.
Qed.

Lemma set_slot_length c seg i d : seg_wf c seg -> i < num_buffers c -> length d = buf_size c - 16 ->
  length (set_slot c i d seg) = length seg.
Proof.
  intros (Hc & Hl & Hb & Hn) Hi Hd.
  destruct (slot_within c i _ eq_refl Hb Hi) as (H1 & H2 & H3).
  assert (Hst : slot_start c i + length d = slot_stop c i) by (unfold slot_start, slot_stop in *; lia).
  unfold set_slot. rewrite !app_length, firstn_length, skipn_length. lia.
Qed.

Lemma set_slot_wf c seg i d : seg_wf c seg -> i < num_buffers c -> length d = buf_size c - 16 ->
  seg_wf c (set_slot c i d seg).
Proof.
  intros W Hi Hd. pose proof (set_slot_length c seg i d W Hi Hd) as L.
  pose proof W as (Hc & Hl & Hb & Hn).
  destruct (slot_within c i _ eq_refl Hb Hi) as (H1 & _ & _).
  split; [|rewrite L; auto].
  rewrite Hc at 1. unfold shm_open. f_equal; do 2 f_equal; apply slice_ext; rewrite ?L; auto;
    intros k Hk; symmetry; apply set_slot_outside; auto; lia.
Qed.

Lemma slot_set_same c seg i d : seg_wf c seg -> i < num_buffers c -> length d = buf_size c - 16 ->
  slot c i (set_slot c i d seg) = Some d.
Proof.
  intros W Hi Hd. pose proof W as (Hc & Hl & Hb & Hn).
  destruct (slot_within c i _ eq_refl Hb Hi) as (H1 & H2 & H3).
  assert (Hst : slot_start c i + length d = slot_stop c i) by (unfold slot_start, slot_stop in *; lia).
  unfold slot. destruct (Nat.ltb_spec i (num_buffers c)); [|lia]. f_equal.
  unfold set_slot. apply slice_app_exact; [|lia]. rewrite firstn_length. lia.
Qed.

Lemma slot_set_other c seg i j d : seg_wf c seg -> i < num_buffers c -> i <> j -> length d = buf_size c - 16 ->
  slot c j (set_slot c i d seg) = slot c j seg.
Proof.
  intros W Hi Hij Hd. unfold slot. destruct (Nat.ltb_spec j (num_buffers c)) as [Hj|]; [|reflexivity]. f_equal.
  apply slice_ext; [|now apply set_slot_length].
  intros k Hk. apply set_slot_outside; auto.
  destruct (Nat.lt_total i j) as [H|[H|H]]; [|congruence|].
  - right. pose proof (slot_disjoint c i j H). lia.
  - left. pose proof (slot_disjoint c j i H). lia.
Qed.

(** A fresh segment holds no message in any slot. *)
Lemma fresh_slot n b seg i m : 0 < n -> shm_create n b = Some seg -> slot (shm_open seg) i seg = Some m ->
  firstn 2 m <> PREAMBLE.
Proof.
  intros Hn H Hs. destruct (shm_create_open n b seg Hn H) as [E L].
  pose proof (shm_create_wf n b seg Hn H) as W. apply slot_inv in Hs as [Hi ->].
  destruct (shm_create_shape n b seg Hn H) as (nb & sb & L1 & L2 & _ & _ & Es).
  pose proof W as (_ & _ & Hb & _). destruct (slot_within _ i _ eq_refl Hb Hi) as (H1 & _).
  revert H1. generalize (slot_start (shm_open seg) i) (slot_stop (shm_open seg) i). intros p q Hp.
  unfold slice. rewrite Es, app_assoc, skipn_app, skipn_all2 by (rewrite app_length; lia).
  cbn [app]. rewrite repeat_skipn, !repeat_firstn.
  destruct (min 2 _) as [|[|k]]; cbn [repeat PREAMBLE]; discriminate.
Qed.

Section Publish.
  Context {Obj : Type} (pickle_dumps : Obj -> bytes * list bytes)
          (pickle_loads : bytes -> list bytes -> option Obj).
  Hypothesis pickle_roundtrip :
    forall o, pickle_loads (fst (pickle_dumps o)) (snd (pickle_dumps o)) = Some o.

  Notation serialize := (serialize pickle_dumps).
  Notation holds := (holds pickle_dumps).
  Notation copy_slots := (copy_slots pickle_dumps pickle_loads).
  Notation copy_obj := (copy_obj pickle_dumps pickle_loads).
  Notation shm_publish := (shm_publish pickle_dumps pickle_loads).

  (** Every slot either holds a complete message or was never written. *)
  Definition slot_clean (m : bytes) : Prop := firstn 2 m <> PREAMBLE \/ exists i o, holds m i o.
  Definition slots_clean (s : shm_pub) : Prop :=
    forall k m, slot (ctx s) k (seg s) = Some m -> slot_clean m.
  Definition pub_wf (s : shm_pub) : Prop := seg_wf (ctx s) (seg s) /\ slots_clean s.

  Lemma copy_slots_ok old oseg : seg_wf old oseg ->
    (forall k m, slot old k oseg = Some m -> slot_clean m) ->
    forall is new nseg, seg_wf new nseg -> num_buffers new = num_buffers old -> buf_size old < buf_size new ->
    (forall k, In k is -> k < num_buffers old) -> NoDup is ->
    exists nseg', copy_slots old oseg new is nseg = Some nseg' /\ seg_wf new nseg' /\
      (forall k m i o, In k is -> slot old k oseg = Some m -> holds m i o ->
         exists m', slot new k nseg' = Some m' /\ holds m' i o) /\
      (forall k m, In k is -> slot old k oseg = Some m -> firstn 2 m <> PREAMBLE ->
         slot new k nseg' = slot new k nseg) /\
      (forall k, ~ In k is -> slot new k nseg' = slot new k nseg).
  Proof.
    intros Wo Cl. induction is as [|j is IH]; intros new nseg Wn En Hlt Hin Hnd; cbn [ShmModel.copy_slots].
    - exists nseg. split; [reflexivity|]. split; [exact Wn|]. cbn. tauto.
    - inversion Hnd as [|? ? Hj Hnd']; subst.
      assert (Hjn : j < num_buffers old) by (apply Hin; now left).
      destruct (slot_some old oseg j Wo Hjn) as (from & Ef & Lf).
      destruct (slot_some new nseg j Wn ltac:(lia)) as (to & Et & Lt).
      rewrite Ef, Et.
      assert (Hlen : length from < length to) by (destruct Wo as (_ & _ & ? & _); lia).
      assert (Hin' : forall k, In k is -> k < num_buffers old) by (intros; apply Hin; now right).
      destruct (Cl j from Ef) as [Hun|(i & o & Hh)].
      + assert (Ec : copy_obj from to = (to, Some UninitializedMemory)).
        { unfold MarshalModel.copy_obj. now destruct (uninitialized_read pickle_loads from Hun) as [-> _]. }
        rewrite Ec. destruct (IH new nseg Wn En Hlt Hin' Hnd') as (nseg' & E & W' & A & B & C).
        exists nseg'. split; [exact E|]. split; [exact W'|]. split; [|split].
        * intros k m i o [->|Hk] Hs Hh; [|eauto].
          exfalso. rewrite Ef in Hs. injection Hs as <-. apply Hun.
          destruct Hh as (t & h & bs & rest & Hser & ->).
          apply serialize_inv in Hser as (nb & lb & ib & _ & _ & _ & _ & -> & _). reflexivity.
        * intros k m [->|Hk] Hs Hu; [now apply C|]. eapply B; eauto.
        * intros k Hk. apply C. intros ?; apply Hk; now right.
      + destruct (copy_obj_holds pickle_dumps pickle_loads pickle_roundtrip from to i o Hh Hlen) as (to' & Ec & Hh' & Lt').
        rewrite Ec.
        assert (Lto : length to' = buf_size new - 16) by lia.
        assert (Wn' : seg_wf new (set_slot new j to' nseg)) by (apply set_slot_wf; auto; lia).
        destruct (IH new _ Wn' En Hlt Hin' Hnd') as (nseg' & E & W' & A & B & C).
        exists nseg'. split; [exact E|]. split; [exact W'|]. split; [|split].
        * intros k m i' o' [->|Hk] Hs Hh2; [|eauto].
          rewrite Ef in Hs. injection Hs as <-.
          rewrite (C k Hj), slot_set_same by (auto; lia).
          exists to'. split; [reflexivity|].
          pose proof (holds_read pickle_dumps pickle_loads pickle_roundtrip _ _ _ Hh) as [R1 R2].
          pose proof (holds_read pickle_dumps pickle_loads pickle_roundtrip _ _ _ Hh2) as [R3 R4].
          congruence.
        * intros k m [->|Hk] Hs Hu.
          -- exfalso. rewrite Ef in Hs. injection Hs as <-. apply Hu.
             destruct Hh as (t & h & bs & rest & Hser & ->).
             apply serialize_inv in Hser as (nb & lb & ib & _ & _ & _ & _ & -> & _). reflexivity.
          -- rewrite (B k m Hk Hs Hu). apply slot_set_other; auto; try lia. congruence.
        * intros k Hk. rewrite C by (intros ?; apply Hk; now right).
          apply slot_set_other; auto; try lia. intros <-. apply Hk. now left.
  Qed.

  Definition mod_slot (i : N) (n : nat) : nat := N.to_nat (i mod N.of_nat n).

  Lemma mod_slot_lt i n : 0 < n -> mod_slot i n < n.
  Proof. intros H. unfold mod_slot. pose proof (N.mod_lt i (N.of_nat n)). lia. Qed.

  (** Writing into a slot that is large enough. *)
  Lemma write_slot_ok s i o t h bs : pub_wf s -> serialize i o = Ok (t, h, bs) -> t <= buf_size (ctx s) - 16 ->
    let k := mod_slot i (num_buffers (ctx s)) in
    exists mem mem', slot (ctx s) k (seg s) = Some mem /\ write_mem mem h bs = (mem', None) /\
      let s' := {| ctx := ctx s; seg := set_slot (ctx s) k mem' (seg s) |} in
      pub_wf s' /\ slot (ctx s') k (seg s') = Some mem' /\ holds mem' i o /\
      (forall j, j <> k -> slot (ctx s') j (seg s') = slot (ctx s) j (seg s)).
  Proof.
    intros [W Cl] Hs Ht k.
    assert (Hk : k < num_buffers (ctx s)) by (apply mod_slot_lt; now destruct W as (_ & _ & _ & ?)).
    destruct (slot_some _ _ _ W Hk) as (mem & Em & Lm).
    destruct (serialize_header_len pickle_dumps _ _ _ _ _ Hs) as (_ & Etot & _).
    exists mem, (h ++ concat bs ++ skipn t mem).
    split; [exact Em|]. split; [rewrite write_mem_ok by lia; now rewrite Etot|].
    assert (Lm' : length (h ++ concat bs ++ skipn t mem) = buf_size (ctx s) - 16)
      by (rewrite !app_length, skipn_length; lia).
    assert (Hh : holds (h ++ concat bs ++ skipn t mem) i o) by (exists t, h, bs, (skipn t mem); auto).
    cbn [ctx seg]. split; [|split; [|split]].
    - split; cbn [ctx seg]; [apply set_slot_wf; auto|].
      intros j m Hj. cbn [ctx seg] in Hj. destruct (Nat.eq_dec j k) as [->|Hne].
      + rewrite slot_set_same in Hj by auto. injection Hj as <-. right; eauto.
      + rewrite slot_set_other in Hj by auto. now apply (Cl j).
    - apply slot_set_same; auto.
    - exact Hh.
    - intros j Hj. apply slot_set_other; auto.
  Qed.

  Lemma publish_no_grow s i o t h bs : pub_wf s -> serialize i o = Ok (t, h, bs) -> t <= buf_size (ctx s) - 16 ->
    exists s', shm_publish s i o = Published s' /\ pub_wf s' /\ ctx s' = ctx s /\
      let k := mod_slot i (num_buffers (ctx s)) in
      (exists m, slot (ctx s') k (seg s') = Some m /\ holds m i o) /\
      (forall j, j <> k -> slot (ctx s') j (seg s') = slot (ctx s) j (seg s)).
  Proof.
    intros P Hs Ht. unfold ShmModel.shm_publish. rewrite Hs.
    destruct (Nat.ltb_spec (buf_size (ctx s)) t) as [Hlt|_]; [lia|].
    destruct (write_slot_ok s i o t h bs P Hs Ht) as (mem & mem' & Em & Ew & P' & Ek & Hh & Ho).
    cbv zeta. unfold mod_slot in *. rewrite Em, Ew. eexists. split; [reflexivity|].
    split; [exact P'|]. split; [reflexivity|]. split; [|exact Ho]. exists mem'. auto.
  Qed.

  Lemma publish_grow s i o t h bs : pub_wf s -> serialize i o = Ok (t, h, bs) -> buf_size (ctx s) < t ->
    (N.of_nat (t * 2 + 16 * num_buffers (ctx s)) < 2 ^ 64)%N ->
    exists s', shm_publish s i o = Published s' /\ pub_wf s' /\
      num_buffers (ctx s') = num_buffers (ctx s) /\
      buf_size (ctx s') = t * 2 + 16 * num_buffers (ctx s) /\
      let k := mod_slot i (num_buffers (ctx s)) in
      (exists m, slot (ctx s') k (seg s') = Some m /\ holds m i o) /\
      (forall j m i' o', j <> k -> slot (ctx s) j (seg s) = Some m -> holds m i' o' ->
         exists m', slot (ctx s') j (seg s') = Some m' /\ holds m' i' o') /\
      (forall j m, j <> k -> slot (ctx s) j (seg s) = Some m -> firstn 2 m <> PREAMBLE ->
         exists m', slot (ctx s') j (seg s') = Some m' /\ firstn 2 m' <> PREAMBLE).
  Proof.
    intros [W Cl] Hs Hlt H64. unfold ShmModel.shm_publish. rewrite Hs.
    destruct (Nat.ltb_spec (buf_size (ctx s)) t) as [_|?]; [|lia].
    assert (Hn : 0 < num_buffers (ctx s)) by now destruct W as (_ & _ & _ & ?).
    destruct (shm_create_some _ _ Hn H64) as (nseg & En). rewrite En.
    destruct (shm_create_open _ _ _ Hn En) as [Eo _].
    pose proof (shm_create_wf _ _ _ Hn En) as Wn.
    assert (Hnum : num_buffers (shm_open nseg) = num_buffers (ctx s)) by now rewrite Eo.
    assert (Hbs : buf_size (shm_open nseg) = t * 2 + 16 * num_buffers (ctx s)) by now rewrite Eo.
    destruct (copy_slots_ok (ctx s) (seg s) W Cl (seq 0 (num_buffers (ctx s))) (shm_open nseg) nseg Wn Hnum)
      as (nseg' & Ec & Wc & A & B & C).
    { lia. } { intros k Hk. apply in_seq in Hk. lia. } { apply seq_NoDup. }
    rewrite Ec. cbn [ctx seg].
    assert (Pg : pub_wf {| ctx := shm_open nseg; seg := nseg' |}).
    { split; cbn [ctx seg]; [exact Wc|]. intros k m Hk. cbn [ctx seg] in Hk.
      assert (Hkn : k < num_buffers (ctx s)) by (apply slot_inv in Hk as [? _]; lia).
      destruct (slot_some _ _ k W Hkn) as (m0 & E0 & _).
      assert (Hink : In k (seq 0 (num_buffers (ctx s)))) by (apply in_seq; lia).
      destruct (Cl k m0 E0) as [Hu|(i' & o' & Hh)].
      - rewrite (B k m0 Hink E0 Hu) in Hk. left. eapply fresh_slot; eauto.
      - destruct (A k m0 i' o' Hink E0 Hh) as (m' & E' & Hh'). right. exists i', o'. congruence. }
    destruct (write_slot_ok {| ctx := shm_open nseg; seg := nseg' |} i o t h bs Pg Hs) as (mem & mem' & Em & Ew & P' & Ek & Hh & Ho).
    { cbn [ctx]. lia. }
    cbv zeta in *. cbn [ctx seg] in *. unfold mod_slot in *. rewrite Hnum in *. rewrite Em, Ew.
    eexists. split; [reflexivity|]. cbn [ctx seg]. split; [exact P'|]. split; [exact Hnum|]. split; [exact Hbs|].
    split; [exists mem'; auto|]. split.
    - intros j m i' o' Hj Hm Hhm. rewrite Ho by auto.
      assert (Hjn : j < num_buffers (ctx s)) by now apply slot_inv in Hm as [? _].
      apply (A j m i' o'); auto. apply in_seq. lia.
    - intros j m Hj Hm Hu. rewrite Ho by auto.
      assert (Hjn : j < num_buffers (ctx s)) by now apply slot_inv in Hm as [? _].
      rewrite (B j m) by (auto; apply in_seq; lia).
      destruct (slot_some (shm_open nseg) nseg j Wn ltac:(lia)) as (m' & E' & _).
      exists m'. split; [exact E'|]. eapply fresh_slot; eauto.
  Qed.

  (** The window: neither fits nor grows. *)
  Lemma publish_window s i o t h bs : pub_wf s -> serialize i o = Ok (t, h, bs) ->
    buf_size (ctx s) - 16 < t -> t <= buf_size (ctx s) ->
    exists s', shm_publish s i o = PublishRaised s' ValueError.
  Proof.
    intros [W Cl] Hs H1 H2. unfold ShmModel.shm_publish. rewrite Hs.
    destruct (Nat.ltb_spec (buf_size (ctx s)) t) as [?|_]; [lia|]. cbv zeta.
    assert (Hk : mod_slot i (num_buffers (ctx s)) < num_buffers (ctx s)) by (apply mod_slot_lt; now destruct W as (_ & _ & _ & ?)).
    unfold mod_slot in Hk. destruct (slot_some _ _ _ W Hk) as (mem & Em & Lm). rewrite Em.
    destruct (serialize_header_len pickle_dumps _ _ _ _ _ Hs) as (Lh & Etot & _).
    unfold write_mem. destruct (Nat.le_gt_cases (length h) (length mem)) as [Hle|Hgt].
    - rewrite assign_ok by lia.
      destruct (write_bufs_short bs (length h) (firstn 0 mem ++ h ++ skipn (length h) mem)) as (mem' & E).
      + cbn [firstn app]. rewrite app_length, skipn_length. lia.
      + cbn [firstn app]. rewrite app_length, skipn_length. lia.
      + rewrite E. eauto.
    - assert (E : assign 0 (length h) h mem = Err ValueError) by (apply (assign_short 0); lia).
      rewrite E. eauto.
  Qed.

  (** Initial segment. *)
  Lemma initial_wf n b sg : 0 < n -> shm_create n b = Some sg -> pub_wf {| ctx := shm_open sg; seg := sg |}.
  Proof.
    intros Hn H. split; cbn [ctx seg]; [eapply shm_create_wf; eauto|].
    intros k m Hk. left. eapply fresh_slot; eauto.
  Qed.

  Definition usable (s : shm_pub) : nat := buf_size (ctx s) - 16.

  Lemma publish_any s i o t h bs : pub_wf s -> serialize i o = Ok (t, h, bs) ->
    (N.of_nat (t * 2 + 16 * num_buffers (ctx s)) < 2 ^ 64)%N ->
    (t <= usable s \/ buf_size (ctx s) < t) ->
    exists s', shm_publish s i o = Published s' /\ pub_wf s' /\ num_buffers (ctx s') = num_buffers (ctx s) /\
      let k := mod_slot i (num_buffers (ctx s)) in
      (exists m, slot (ctx s') k (seg s') = Some m /\ holds m i o) /\
      (forall j m i' o', j <> k -> slot (ctx s) j (seg s) = Some m -> holds m i' o' ->
         exists m', slot (ctx s') j (seg s') = Some m' /\ holds m' i' o').
  Proof.
    intros P Hs H64 [Hf|Hg].
    - destruct (publish_no_grow s i o t h bs P Hs Hf) as (s' & E & P' & Ec & Hk & Ho).
      exists s'. split; [exact E|]. split; [exact P'|]. split; [now rewrite Ec|]. split; [exact Hk|].
      intros j m i' o' Hj Hm Hh. rewrite Ho by auto. eauto.
    - destruct (publish_grow s i o t h bs P Hs Hg H64) as (s' & E & P' & En & _ & Hk & Ho & _).
      exists s'. auto 10.
  Qed.

  Lemma publish_err s i o e : serialize i o = Err e -> shm_publish s i o = PublishRaised s e.
  Proof. intros H. unfold ShmModel.shm_publish. now rewrite H. Qed.

  Lemma publish_too_big s i o t h bs : serialize i o = Ok (t, h, bs) -> buf_size (ctx s) < t ->
    (2 ^ 64 <= N.of_nat (t * 2 + 16 * num_buffers (ctx s)))%N -> shm_publish s i o = ResizeFailed.
  Proof.
    intros H Hlt H64. unfold ShmModel.shm_publish. rewrite H.
    destruct (Nat.ltb_spec (buf_size (ctx s)) t); [|lia].
    now rewrite (shm_create_none _ _ H64).
  Qed.

  (** Conversely any successful publication preserves the invariant and the other slots. *)
  Lemma publish_published s i o s' : pub_wf s -> shm_publish s i o = Published s' ->
    (exists t h bs, serialize i o = Ok (t, h, bs)) /\
    pub_wf s' /\ num_buffers (ctx s') = num_buffers (ctx s) /\
      let k := mod_slot i (num_buffers (ctx s)) in
      (exists m, slot (ctx s') k (seg s') = Some m /\ holds m i o) /\
      (forall j m i' o', j <> k -> slot (ctx s) j (seg s) = Some m -> holds m i' o' ->
         exists m', slot (ctx s') j (seg s') = Some m' /\ holds m' i' o').
  Proof.
    intros P E. destruct (serialize i o) as [[[t h] bs]|e] eqn:Hs.
    2:{ rewrite (publish_err s i o e Hs) in E. discriminate. }
    destruct (Nat.le_gt_cases t (buf_size (ctx s))) as [Hle|Hgt].
    - destruct (Nat.le_gt_cases t (usable s)) as [Hf|Hw].
      + split; [eauto|].
        destruct (publish_no_grow s i o t h bs P Hs Hf) as (s2 & E2 & P' & Ec & Hk & Ho).
        rewrite E in E2. injection E2 as <-. split; [exact P'|]. split; [now rewrite Ec|]. split; [exact Hk|].
        intros j m i' o' Hj Hm Hh. rewrite Ho by auto. eauto.
      + exfalso. destruct (publish_window s i o t h bs P Hs Hw Hle) as [s2 E2]. congruence.
    - split; [eauto|].
      destruct (N.lt_ge_cases (N.of_nat (t * 2 + 16 * num_buffers (ctx s))) (2 ^ 64)%N) as [H64|H64].
      + destruct (publish_grow s i o t h bs P Hs Hgt H64) as (s2 & E2 & P' & En & _ & Hk & Ho & _).
        rewrite E in E2. injection E2 as <-. auto 10.
      + rewrite (publish_too_big s i o t h bs Hs Hgt H64) in E. discriminate.
  Qed.

  Notation shm_publish_all := (shm_publish_all pickle_dumps pickle_loads).

  Lemma shm_publish_all_cons s first o os : shm_publish_all s first (o :: os) =
    match shm_publish s first o with Published s' => shm_publish_all s' (first + 1)%N os | _ => None end.
  Proof. reflexivity. Qed.

  Lemma mod_slot_neq a b n : 0 < n -> (a < b)%N -> (b < a + N.of_nat n)%N -> mod_slot a n <> mod_slot b n.
  Proof.
    intros Hn Hab Hb E. unfold mod_slot in E. apply N2Nat.inj in E.
    pose proof (N.div_mod a (N.of_nat n) ltac:(lia)) as Da. pose proof (N.div_mod b (N.of_nat n) ltac:(lia)) as Db.
    rewrite E in Da.
    assert (N.of_nat n * (b / N.of_nat n) = N.of_nat n * (a / N.of_nat n) + (b - a))%N by lia.
    assert (a / N.of_nat n < b / N.of_nat n \/ b / N.of_nat n <= a / N.of_nat n)%N as [H2|H2] by lia.
    - assert (N.of_nat n * (a / N.of_nat n + 1) <= N.of_nat n * (b / N.of_nat n))%N by (apply N.mul_le_mono_l; lia). lia.
    - assert (N.of_nat n * (b / N.of_nat n) <= N.of_nat n * (a / N.of_nat n))%N by (apply N.mul_le_mono_l; lia). lia.
  Qed.

  Lemma publish_all_keeps os : forall s first s', pub_wf s -> shm_publish_all s first os = Some s' ->
    pub_wf s' /\ num_buffers (ctx s') = num_buffers (ctx s) /\
    (forall a o m, (a < first)%N -> (first + N.of_nat (length os) <= a + N.of_nat (num_buffers (ctx s)))%N ->
       slot (ctx s) (mod_slot a (num_buffers (ctx s))) (seg s) = Some m -> holds m a o ->
       exists m', slot (ctx s') (mod_slot a (num_buffers (ctx s))) (seg s') = Some m' /\ holds m' a o) /\
    (forall k o, nth_error os k = Some o -> length os <= k + num_buffers (ctx s) ->
       let a := (first + N.of_nat k)%N in
       exists m, slot (ctx s') (mod_slot a (num_buffers (ctx s))) (seg s') = Some m /\ holds m a o).
  Proof.
    induction os as [|o os IH]; intros s first s' P E.
    - cbn [ShmModel.shm_publish_all] in E. injection E as <-. split; [exact P|]. split; [reflexivity|]. split; [eauto|]. intros [|k] ? H; discriminate.
    - rewrite shm_publish_all_cons in E. destruct (shm_publish s first o) as [s1| |] eqn:E1; try discriminate.
      destruct (publish_published s first o s1 P E1) as (_ & P1 & N1 & (m1 & Em1 & Hm1) & Ho1).
      destruct (IH s1 (first + 1)%N s' P1 E) as (P' & N' & A & B).
      assert (Hn : 0 < num_buffers (ctx s)) by now destruct P as ((_ & _ & _ & ?) & _).
      rewrite N1 in *.
      split; [exact P'|]. split; [exact N'|]. cbn [length] in *. split.
      + intros a oa m Ha Hb Em Hm.
        destruct (Ho1 (mod_slot a (num_buffers (ctx s))) m a oa) as (m' & Em' & Hm'); auto.
        { apply mod_slot_neq; lia. }
        apply (A a oa m'); auto; lia.
      + intros [|k] ok Hk Hl; cbn [nth_error] in Hk.
        * injection Hk as <-. cbn [N.of_nat]. rewrite N.add_0_r.
          apply (A first o m1); auto; lia.
        * destruct (B k ok Hk ltac:(lia)) as (m' & Em' & Hm').
          replace (first + N.of_nat (S k))%N with (first + 1 + N.of_nat k)%N by lia. eauto.
  Qed.
End Publish.

Arguments usable : clear implicits.
