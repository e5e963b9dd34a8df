(** C05-C10: marshalling and shared memory.
    [pickle_ok dumps loads] (ShmSpec) is the only assumption about pickle. *)
From Coq Require Import List NArith Arith Bool Lia.
From Coq Require Import Strings.Byte.
From Verif Require Import CodecModel MarshalModel MarshalProofs ShmModel ShmSpec ShmProofs ShmLeaseProofs.
Import ListNotations.

(** C05 *)
Theorem C05_written_message_reads_back :
  forall Obj (dumps : Obj -> bytes * list bytes) loads, pickle_ok dumps loads ->
  forall i o mem mem', to_mem dumps i o mem = (mem', None) ->
  msg_id_of mem' = Ok i /\ obj_from_mem loads mem' = Ok o /\ length mem' = length mem.
Proof. exact @to_mem_roundtrip. Qed.

(** "Large enough" is: the message is strictly smaller than the buffer. *)
Theorem C05_large_enough : forall Obj (dumps : Obj -> bytes * list bytes) n i o mem, sendable dumps n i o ->
  (message_size dumps o < length mem <-> exists mem', to_mem dumps i o mem = (mem', None)).
Proof. exact @to_mem_exactly_when. Qed.

(** Bytes behind the message keep their previous value. *)
Theorem C05_rest_untouched : forall Obj (dumps : Obj -> bytes * list bytes) i o mem mem' k,
  to_mem dumps i o mem = (mem', None) -> message_size dumps o <= k -> nth_error mem' k = nth_error mem k.
Proof. exact @to_mem_only_front. Qed.

Example C05_case : sendable toy_dumps 1 7 [x41; x42] /\
  exists mem', to_mem toy_dumps 7 [x41; x42] (repeat xff 40) = (mem', None) /\ obj_from_mem toy_loads mem' = Ok [x41; x42].
Proof. split; [split; vm_compute; reflexivity|]. eexists. split; vm_compute; reflexivity. Qed.

(** C06 *)
Theorem C06_undersized_raises : forall Obj (dumps : Obj -> bytes * list bytes) n i o mem,
  sendable dumps n i o -> length mem <= message_size dumps o ->
  to_mem dumps i o mem = (mem, Some (UndersizedMemory (message_size dumps o))).
Proof. exact @to_mem_undersized. Qed.

Theorem C06_any_failure_leaves_buffer_unchanged :
  forall Obj (dumps : Obj -> bytes * list bytes) i o mem mem' e,
  to_mem dumps i o mem = (mem', Some e) -> mem' = mem.
Proof. exact @to_mem_raise_unchanged. Qed.

Theorem C06_uninitialised_raises : forall Obj (loads : bytes -> list bytes -> option Obj) mem,
  firstn 2 mem <> [x45; x5a] ->
  msg_id_of mem = Err UninitializedMemory /\ obj_from_mem loads mem = Err UninitializedMemory.
Proof. exact @uninitialized_read. Qed.

Example C06_case :
  to_mem toy_dumps 7 [x41; x42] (repeat xff 29) = (repeat xff 29, Some (UndersizedMemory 29))
  /\ obj_from_mem toy_loads (repeat x30 40) = Err UninitializedMemory.
Proof. split; vm_compute; reflexivity. Qed.

(** C07: a broadcast, whether or not it replaced the segment, stores the new message in its slot and
    leaves every other slot reading as before. *)
Theorem C07_growth_preserves_messages :
  forall Obj (dumps : Obj -> bytes * list bytes) loads, pickle_ok dumps loads ->
  forall n s i o s', reachable dumps loads n s -> shm_publish dumps loads s i o = Published s' ->
  slot_reads loads s' (N.to_nat (i mod N.of_nat n)) i o /\
  (forall k i' o', k <> N.to_nat (i mod N.of_nat n) -> slot_reads loads s k i' o' -> slot_reads loads s' k i' o').
Proof. exact @grow_preserves. Qed.

(** Over whole runs: the last [n] messages are all readable, whatever resizes happened. *)
Theorem C07_last_messages_readable :
  forall Obj (dumps : Obj -> bytes * list bytes) loads, pickle_ok dumps loads ->
  forall n b sg first os s, 0 < n -> shm_create n b = Some sg ->
  shm_publish_all dumps loads {| ctx := shm_open sg; seg := sg |} first os = Some s ->
  forall k o, nth_error os k = Some o -> length os <= k + n ->
  let i := (first + N.of_nat k)%N in slot_reads loads s (N.to_nat (i mod N.of_nat n)) i o.
Proof. exact @run_last_n. Qed.

(** Three messages through two slots; the third is too big and replaces the segment. *)
Example C07_case : exists s,
  shm_publish_all toy_dumps toy_loads toy_pub 10 [[x01]; [x02]; repeat x03 100] = Some s
  /\ buf_size (ctx s) <> buf_size (ctx toy_pub)
  /\ slot_reads toy_loads s 1 11 [x02] /\ slot_reads toy_loads s 0 12 (repeat x03 100).
Proof.
  eexists. split; [vm_compute; reflexivity|]. split; [vm_compute; discriminate|].
  split; (eexists; split; [vm_compute; reflexivity|split; vm_compute; reflexivity]).
Qed.

(** C08 is false of the code: a message whose size is within 16 bytes below the slot size is
    neither stored nor does it cause growth; broadcast raises ValueError. *)
Theorem C08_any_size_refuted : exists (s : shm_pub) (o : bytes),
  reachable toy_dumps toy_loads 2 s /\ sendable toy_dumps 2 0 o /\
  exists s', shm_publish toy_dumps toy_loads s 0 o = PublishRaised s' ValueError.
Proof.
  exact (ex_intro _ toy_pub (ex_intro _ (repeat x41 55)
    (conj toy_reachable (conj (conj eq_refl eq_refl) (ex_intro _ _ eq_refl))))).
Qed.

(** The failing sizes are exactly this window, for every pickle, publisher state and object. *)
Theorem C08_window_raises :
  forall Obj (dumps : Obj -> bytes * list bytes) loads, pickle_ok dumps loads ->
  forall n s i o, reachable dumps loads n s -> sendable dumps n i o ->
  buf_size (ctx s) - 16 < message_size dumps o <= buf_size (ctx s) ->
  exists s', shm_publish dumps loads s i o = PublishRaised s' ValueError.
Proof. exact @broadcast_in_window. Qed.

Theorem C08_outside_window_succeeds :
  forall Obj (dumps : Obj -> bytes * list bytes) loads, pickle_ok dumps loads ->
  forall n s i o, reachable dumps loads n s -> sendable dumps n i o ->
  (message_size dumps o <= buf_size (ctx s) - 16 \/ buf_size (ctx s) < message_size dumps o) ->
  exists s', shm_publish dumps loads s i o = Published s' /\ slot_reads loads s' (N.to_nat (i mod N.of_nat n)) i o.
Proof. exact @broadcast_outside_window. Qed.

(** And the failure is sticky: the half-written slot then makes a later, bigger broadcast fail too,
    because growth re-reads it. *)
Theorem C08_failed_write_blocks_growth_refuted :
  exists o s', shm_publish toy_dumps toy_loads toy_pub 0 o = PublishRaised s' ValueError /\
  message_size toy_dumps o = 82 /\
  exists s2, shm_publish toy_dumps toy_loads s' 0 (repeat x41 100) = s2 /\ s2 = ResizeFailed.
Proof. exact toy_window. Qed.

Example C08_case : buf_size (ctx toy_pub) = 96 /\
  exists s', shm_publish toy_dumps toy_loads toy_pub 0 (repeat x41 70) = Published s'.
Proof. split; [vm_compute; reflexivity|]. eexists. vm_compute. reflexivity. Qed.

(** C09 *)
Theorem C09_layout : forall n b sg, 0 < n -> shm_create n b = Some sg ->
  num_buffers (shm_open sg) = n /\ length sg = n * buf_size (shm_open sg) /\
  (forall i, i < n ->
     16 <= slot_start (shm_open sg) i /\ slot_start (shm_open sg) i + b <= slot_stop (shm_open sg) i /\
     slot_stop (shm_open sg) i <= length sg) /\
  (forall i j, i < j -> slot_stop (shm_open sg) i <= slot_start (shm_open sg) j).
Proof. exact layout_ok. Qed.

Theorem C09_write_one_slot : forall n b sg, 0 < n -> shm_create n b = Some sg ->
  forall writes, (forall i d, In (i, d) writes -> i < n /\ length d = buf_size (shm_open sg) - 16) ->
  let sg' := fold_left (fun s w => set_slot (shm_open sg) (fst w) (snd w) s) writes sg in
  shm_open sg' = shm_open sg /\ length sg' = length sg /\
  (forall i d, i < n -> length d = buf_size (shm_open sg) - 16 ->
     slot (shm_open sg) i (set_slot (shm_open sg) i d sg') = Some d /\
     forall j, j <> i -> slot (shm_open sg) j (set_slot (shm_open sg) i d sg') = slot (shm_open sg) j sg').
Proof. exact writes_ok. Qed.

Example C09_case : exists sg, shm_create 3 20 = Some sg /\ buf_size (shm_open sg) = 68 /\ length sg = 204.
Proof. eexists. split; [vm_compute; reflexivity|]. split; vm_compute; reflexivity. Qed.

(** C10: after any history the segment is available exactly if there was no moment without holder. *)
Theorem C10_lives_as_long_as_leases : forall creator ops,
  linked (seg_run creator ops) = true <-> always_held creator ops.
Proof. exact seg_linked. Qed.

Theorem C10_lease_set : forall creator ops c,
  In c (leases (seg_run creator ops)) <-> holders creator (rev ops) c.
Proof. exact seg_leases. Qed.

(** Attaching to a segment whose last holder already left still takes a lease, on a segment that is
    gone: holding a lease does not by itself guarantee the segment exists. *)
Theorem C10_late_attach_refuted : exists creator ops c,
  holders creator (rev ops) c /\ linked (seg_run creator ops) = false.
Proof.
  exact (ex_intro _ 0 (ex_intro _ [SegGone 0; SegLease 1] (ex_intro _ 1 (conj (or_introl eq_refl) eq_refl)))).
Qed.

Example C10_case : linked (seg_run 0 [SegLease 1; SegLease 2; SegGone 0; SegGone 2; SegLease 3; SegGone 1]) = true
  /\ linked (seg_run 0 [SegLease 1; SegGone 0; SegGone 1; SegLease 2]) = false.
Proof. split; reflexivity. Qed.

Print Assumptions C05_written_message_reads_back.
Print Assumptions C05_large_enough.
Print Assumptions C05_rest_untouched.
Print Assumptions C06_undersized_raises.
Print Assumptions C06_any_failure_leaves_buffer_unchanged.
Print Assumptions C06_uninitialised_raises.
Print Assumptions C07_growth_preserves_messages.
Print Assumptions C07_last_messages_readable.
Print Assumptions C08_any_size_refuted.
Print Assumptions C08_window_raises.
Print Assumptions C08_outside_window_succeeds.
Print Assumptions C08_failed_write_blocks_growth_refuted.
Print Assumptions C09_layout.
Print Assumptions C09_write_one_slot.
Print Assumptions C10_lives_as_long_as_leases.
Print Assumptions C10_lease_set.
Print Assumptions C10_late_attach_refuted.
