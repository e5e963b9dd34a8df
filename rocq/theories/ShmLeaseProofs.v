(** Lemmas about segment lifetime and the public forms of the shared-memory lemmas. *)
From Coq Require Import List NArith Arith Bool Lia.
From Coq Require Import Strings.Byte.
From Verif Require Import CodecModel CodecProofs MarshalModel MarshalProofs ShmModel ShmSpec ShmProofs.
Import ListNotations.

Lemma existsb_eqb c l : existsb (Nat.eqb c) l = true <-> In c l.
Proof.
  rewrite existsb_exists. split.
  - intros (x & Hx & E). apply Nat.eqb_eq in E. now subst.
  - intros H. exists c. split; [exact H|apply Nat.eqb_refl].
Qed.

Lemma seg_leases creator ops : forall c, In c (leases (seg_run creator ops)) <-> holders creator (rev ops) c.
Proof.
  induction ops as [|op ops IH] using rev_ind; intros c.
  - cbn. split; [intros [->|[]]; reflexivity|intros ->; now left].
  - unfold seg_run. rewrite fold_left_app, rev_app_distr. cbn [fold_left rev app holders].
    fold (seg_run creator ops). destruct op as [d|d]; cbn [seg_step].
    + cbn [leases]. destruct (existsb (Nat.eqb d) (leases (seg_run creator ops))) eqn:E.
      * rewrite IH. apply existsb_eqb in E. apply IH in E. split; [auto|intros [->|H]; auto].
      * rewrite in_app_iff, IH. cbn [In]. split; [intros [H|[->|[]]]|intros [->|H]]; auto.
    + destruct (existsb (Nat.eqb d) (leases (seg_run creator ops))) eqn:E.
      * cbn [leases]. rewrite filter_In, IH, negb_true_iff, Nat.eqb_neq. split; intros [H1 H2]; split; auto.
      * rewrite IH. split; [|intros [_ H]; exact H]. intros H. split; [|exact H].
        intros ->. apply IH, existsb_eqb in H. congruence.
Qed.

Lemma seg_linked creator ops : linked (seg_run creator ops) = true <-> always_held creator ops.
Proof.
  induction ops as [|op ops IH] using rev_ind.
  - cbn. split; [|reflexivity]. intros _ k. exists creator. rewrite firstn_nil. reflexivity.
  - assert (S : always_held creator (ops ++ [op]) <->
                always_held creator ops /\ exists c, holders creator (rev (ops ++ [op])) c).
    { split.
      - intros H. split.
        + intros k. destruct (Nat.le_gt_cases k (length ops)) as [Hk|Hk].
          * specialize (H k). rewrite firstn_app in H. replace (k - length ops) with 0 in H by lia.
            cbn [firstn] in H. now rewrite app_nil_r in H.
          * specialize (H (length ops)). rewrite firstn_app, Nat.sub_diag in H. cbn [firstn] in H.
            rewrite app_nil_r, firstn_all in H. now rewrite firstn_all2 by lia.
        + specialize (H (length (ops ++ [op]))). now rewrite firstn_all in H.
      - intros [H1 H2] k. destruct (Nat.le_gt_cases k (length ops)) as [Hk|Hk].
        + specialize (H1 k). rewrite firstn_app. replace (k - length ops) with 0 by lia.
          cbn [firstn]. now rewrite app_nil_r.
        + rewrite firstn_all2; [exact H2|]. rewrite app_length. cbn. lia. }
    rewrite S, <- IH. clear S.
    assert (L : forall c, In c (leases (seg_run creator (ops ++ [op]))) <-> holders creator (rev (ops ++ [op])) c)
      by apply seg_leases.
    unfold seg_run in *. rewrite fold_left_app in *. cbn [fold_left] in *.
    fold (seg_run creator ops) in *. pose proof (seg_leases creator ops) as L0.
    destruct op as [d|d]; cbn [seg_step linked leases] in *.
    + split; [|tauto]. intros H. split; [exact H|]. exists d. rewrite rev_app_distr. cbn. now left.
    + destruct (existsb (Nat.eqb d) (leases (seg_run creator ops))) eqn:E; cbn [linked leases] in *.
      * rewrite andb_true_iff, negb_true_iff.
        destruct (filter (fun d0 => negb (d =? d0)) (leases (seg_run creator ops))) as [|x l] eqn:F.
        -- split; [intros [_ ?]; discriminate|]. intros [_ [c Hc]]. apply L in Hc. destruct Hc.
        -- split; [|tauto]. intros [H _]. split; [exact H|]. exists x. apply L. now left.
      * split; [|tauto]. intros H. split; [exact H|]. destruct (proj1 IH H (length ops)) as [c Hc].
        rewrite firstn_all in Hc. exists c. apply L. now apply L0.
Qed.

Section Sizes.
  Context {Obj : Type} (dumps : Obj -> bytes * list bytes).

  Lemma message_size_ok i o t h bs : serialize dumps i o = Ok (t, h, bs) -> t = message_size dumps o.
  Proof.
    intros H. destruct (serialize_header_len dumps _ _ _ _ _ H) as (Lh & Ht & _).
    apply serialize_inv in H as (nb & lb & ib & -> & _).
    unfold message_size. unfold MarshalModel.dump in *. cbn [concat length] in *. rewrite app_length in Ht. lia.
  Qed.

  Lemma in_concat_len (b : bytes) bs : In b bs -> length b <= length (concat bs).
  Proof.
    induction bs as [|c bs IH]; intros H; [destruct H|]. cbn [concat]; rewrite app_length. destruct H as [->|H]; [lia|].
    specialize (IH H). lia.
  Qed.

  Lemma sendable_serialize n i o : sendable dumps n i o -> exists h bs, serialize dumps i o = Ok (message_size dumps o, h, bs).
  Proof.
    intros [Hi Hs].
    assert (Hb : (N.of_nat (message_size dumps o) < 2 ^ 64)%N) by lia.
    destruct (serialize_total dumps i o Hi) as (t & h & bs & E).
    - unfold message_size in Hb. unfold MarshalModel.dump. cbn [length]. lia.
    - unfold MarshalModel.dump. intros b [<-|H]; unfold message_size in Hb; [lia|].
      apply in_concat_len in H. lia.
    - pose proof (message_size_ok _ _ _ _ _ E) as ->. eauto.
  Qed.

End Sizes.

Section Public.
  Context {Obj : Type} (dumps : Obj -> bytes * list bytes) (loads : bytes -> list bytes -> option Obj).
  Hypothesis pk : pickle_ok dumps loads.

  Lemma reach_wf n s : reachable dumps loads n s -> pub_wf dumps s /\ num_buffers (ctx s) = n /\ 0 < n.
  Proof.
    intros (b & sg & first & os & Hn & Hc & Hp).
    pose proof (initial_wf dumps n b sg Hn Hc) as P.
    destruct (publish_all_keeps dumps loads pk os _ _ _ P Hp) as (P' & N & _).
    cbn [ctx] in N. destruct (shm_create_open n b sg Hn Hc) as [E _]. rewrite E in N. cbn in N. auto.
  Qed.

  Lemma clean_reads m i o : slot_clean dumps m -> reads loads m i o -> holds dumps m i o.
  Proof.
    intros [Hu|(i' & o' & Hh)] [R1 R2].
    - destruct (uninitialized_read loads m Hu) as [E _]. congruence.
    - destruct (holds_read dumps loads pk m i' o' Hh) as [E1 E2]. congruence.
  Qed.

  Lemma grow_preserves n s i o s' : reachable dumps loads n s -> shm_publish dumps loads s i o = Published s' ->
    slot_reads loads s' (N.to_nat (i mod N.of_nat n)) i o /\
    (forall k i' o', k <> N.to_nat (i mod N.of_nat n) -> slot_reads loads s k i' o' -> slot_reads loads s' k i' o').
  Proof.
    intros R E. destruct (reach_wf n s R) as (P & Hn & _).
    destruct (publish_published dumps loads pk s i o s' P E) as (_ & P' & _ & (m & Em & Hm) & Ho).
    rewrite Hn in *. unfold mod_slot in *. split.
    - exists m. split; [exact Em|]. now apply (holds_read dumps loads pk).
    - intros k i' o' Hk (m0 & Em0 & R0). pose proof (proj2 P k m0 Em0) as Cl.
      pose proof (clean_reads m0 i' o' Cl R0) as Hh.
      destruct (Ho k m0 i' o' Hk Em0 Hh) as (m' & Em' & Hh'). exists m'. split; [exact Em'|]. now apply (holds_read dumps loads pk).
  Qed.

  Lemma run_last_n n b sg first os s : 0 < n -> shm_create n b = Some sg ->
    shm_publish_all dumps loads {| ctx := shm_open sg; seg := sg |} first os = Some s ->
    forall k o, nth_error os k = Some o -> length os <= k + n ->
      let i := (first + N.of_nat k)%N in slot_reads loads s (N.to_nat (i mod N.of_nat n)) i o.
  Proof.
    intros Hn Hc Hp k o Hk Hl i.
    pose proof (initial_wf dumps n b sg Hn Hc) as P.
    destruct (publish_all_keeps dumps loads pk os _ _ _ P Hp) as (_ & _ & _ & B).
    cbn [ctx] in B. destruct (shm_create_open n b sg Hn Hc) as [E _]. rewrite E in B. cbn [num_buffers] in B.
    destruct (B k o Hk Hl) as (m & Em & Hm). exists m. split; [exact Em|]. now apply (holds_read dumps loads pk).
  Qed.

  Lemma broadcast_outside_window n s i o : reachable dumps loads n s -> sendable dumps n i o ->
    (message_size dumps o <= buf_size (ctx s) - 16 \/ buf_size (ctx s) < message_size dumps o) ->
    exists s', shm_publish dumps loads s i o = Published s' /\ slot_reads loads s' (N.to_nat (i mod N.of_nat n)) i o.
  Proof.
    intros R Hs Hw. destruct (reach_wf n s R) as (P & Hn & _).
    destruct (sendable_serialize dumps n i o Hs) as (h & bs & E). destruct Hs as [_ H64]. rewrite <- Hn in H64.
    destruct (publish_any dumps loads pk s i o _ h bs P E H64 Hw) as (s' & E' & _).
    exists s'. split; [exact E'|]. exact (proj1 (grow_preserves n s i o s' R E')).
  Qed.

  Lemma broadcast_in_window n s i o : reachable dumps loads n s -> sendable dumps n i o ->
    buf_size (ctx s) - 16 < message_size dumps o <= buf_size (ctx s) ->
    exists s', shm_publish dumps loads s i o = PublishRaised s' ValueError.
  Proof.
    intros R Hs Hw. destruct (reach_wf n s R) as (P & Hn & _).
    destruct (sendable_serialize dumps n i o Hs) as (h & bs & E).
    eapply publish_window; eauto; lia.
  Qed.
End Public.

(** ** A small pickle stand-in for witnesses: in-band stream terminated by the STOP opcode ".". *)
Definition toy_dumps (o : bytes) : bytes * list bytes := (o ++ [x2e], []).
Definition toy_loads (b : bytes) (bs : list bytes) : option bytes :=
  match rev b with x2e :: r => Some (rev r) | _ => None end.

Lemma toy_ok : pickle_ok toy_dumps toy_loads.
Proof.
  intros o. unfold toy_loads, toy_dumps. cbn [fst snd]. rewrite rev_app_distr. cbn [rev app].
  now rewrite rev_involutive.
Qed.

Definition toy_pub : shm_pub :=
  match shm_create 2 64 with Some sg => {| ctx := shm_open sg; seg := sg |} | None => {| ctx := shm_open []; seg := [] |} end.

Lemma toy_reachable : reachable toy_dumps toy_loads 2 toy_pub.
Proof.
  exists 64. unfold toy_pub. destruct (shm_create 2 64) as [sg|] eqn:E; [|vm_compute in E; discriminate].
  exists sg, 0%N, []. split; [lia|]. split; reflexivity.
Qed.

Lemma toy_window : exists o s', shm_publish toy_dumps toy_loads toy_pub 0 o = PublishRaised s' ValueError /\
  message_size toy_dumps o = 82 /\
  exists s2, shm_publish toy_dumps toy_loads s' 0 (repeat x41 100) = s2 /\ s2 = ResizeFailed.
Proof.
  exists (repeat x41 55). eexists. split; [vm_compute; reflexivity|]. split; [reflexivity|].
  eexists. split; [reflexivity|]. vm_compute. reflexivity.
Qed.

(** ** Public forms for marshalling *)
Section PublicMarshal.
  Context {Obj : Type} (dumps : Obj -> bytes * list bytes).

  Lemma to_mem_exactly_when n i o mem : sendable dumps n i o ->
    (message_size dumps o < length mem <-> exists mem', to_mem dumps i o mem = (mem', None)).
  Proof.
    intros Hs. destruct (sendable_serialize dumps n i o Hs) as (h & bs & E). split.
    - intros H. eapply to_mem_fits; eauto.
    - intros [mem' E']. pose proof (to_mem_cases dumps i o mem) as C. rewrite E' in C.
      destruct C as (t & h' & bs' & E2 & Hl & _). rewrite E in E2. injection E2 as <- <- <-. exact Hl.
  Qed.

  Lemma to_mem_undersized n i o mem : sendable dumps n i o -> length mem <= message_size dumps o ->
    to_mem dumps i o mem = (mem, Some (UndersizedMemory (message_size dumps o))).
  Proof.
    intros Hs Hl. destruct (sendable_serialize dumps n i o Hs) as (h & bs & E).
    unfold to_mem. rewrite E. destruct (Nat.leb_spec (length mem) (message_size dumps o)); [reflexivity|lia].
  Qed.

  Lemma to_mem_raise_unchanged i o mem mem' e : to_mem dumps i o mem = (mem', Some e) -> mem' = mem.
  Proof. intros H. now destruct (to_mem_error_unchanged dumps _ _ _ _ _ H). Qed.

  Lemma to_mem_only_front i o mem mem' k : to_mem dumps i o mem = (mem', None) ->
    message_size dumps o <= k -> nth_error mem' k = nth_error mem k.
  Proof.
    intros E Hk. pose proof (to_mem_cases dumps i o mem) as C. rewrite E in C.
    destruct C as (t & h & bs & Es & Hl & ->).
    pose proof (message_size_ok dumps _ _ _ _ _ Es) as Hm.
    destruct (serialize_header_len dumps _ _ _ _ _ Es) as (_ & Ht & _).
    assert (N : forall q j (l : bytes), nth_error (skipn q l) j = nth_error l (q + j)).
    { clear. induction q as [|q IH]; intros j l; [reflexivity|]. destruct l as [|x l]; [now destruct j|]. cbn. apply IH. }
    rewrite !nth_error_app2 by lia. rewrite N. f_equal. lia.
  Qed.
End PublicMarshal.

(** ** Layout *)
Lemma layout_ok n b sg : 0 < n -> shm_create n b = Some sg ->
  num_buffers (shm_open sg) = n /\ length sg = n * buf_size (shm_open sg) /\
  (forall i, i < n ->
     16 <= slot_start (shm_open sg) i /\ slot_start (shm_open sg) i + b <= slot_stop (shm_open sg) i /\
     slot_stop (shm_open sg) i <= length sg) /\
  (forall i j, i < j -> slot_stop (shm_open sg) i <= slot_start (shm_open sg) j).
Proof.
  intros Hn H. destruct (shm_create_open n b sg Hn H) as [E L].
  rewrite E. cbn [num_buffers buf_size]. repeat split; auto.
  - unfold slot_start. lia.
  - unfold slot_start, slot_stop. cbn [buf_size]. lia.
  - rewrite L. unfold slot_stop. cbn [buf_size].
    replace (i * (b + 16 * n) + (b + 16 * n)) with (S i * (b + 16 * n)) by (cbn; lia).
    apply Nat.mul_le_mono_r. lia.
  - intros i j Hij. now apply slot_disjoint.
Qed.

Lemma writes_ok n b sg : 0 < n -> shm_create n b = Some sg ->
  forall writes, (forall i d, In (i, d) writes -> i < n /\ length d = buf_size (shm_open sg) - 16) ->
  let sg' := fold_left (fun s w => set_slot (shm_open sg) (fst w) (snd w) s) writes sg in
  shm_open sg' = shm_open sg /\ length sg' = length sg /\
  (forall i d, i < n -> length d = buf_size (shm_open sg) - 16 ->
     slot (shm_open sg) i (set_slot (shm_open sg) i d sg') = Some d /\
     forall j, j <> i -> slot (shm_open sg) j (set_slot (shm_open sg) i d sg') = slot (shm_open sg) j sg').
Proof.
  intros Hn H writes Hw. pose proof (shm_create_wf n b sg Hn H) as W.
  destruct (shm_create_open n b sg Hn H) as [E L].
  assert (Hnum : num_buffers (shm_open sg) = n) by now rewrite E.
  set (c := shm_open sg) in *. cbv zeta.
  assert (G : seg_wf c (fold_left (fun s w => set_slot c (fst w) (snd w) s) writes sg) /\
              length (fold_left (fun s w => set_slot c (fst w) (snd w) s) writes sg) = length sg).
  { assert (G : forall s, seg_wf c s -> seg_wf c (fold_left (fun s w => set_slot c (fst w) (snd w) s) writes s) /\
              length (fold_left (fun s w => set_slot c (fst w) (snd w) s) writes s) = length s).
    { induction writes as [|[i d] writes IH]; intros s Ws; cbn [fold_left fst snd]; [auto|].
      destruct (Hw i d (or_introl eq_refl)) as [Hi Hd].
      destruct (IH (fun i d Hin => Hw i d (or_intror Hin)) (set_slot c i d s)) as [A B]; [apply set_slot_wf; auto; lia|].
      split; [exact A|]. rewrite B. apply set_slot_length; auto; lia. }
    now apply G. }
  destruct G as [W' L']. split; [now destruct W' as [<- _]|]. split; [exact L'|].
  intros i d Hi Hd. split; [apply slot_set_same; auto; lia|].
  intros j Hj. apply slot_set_other; auto. lia.
Qed.
