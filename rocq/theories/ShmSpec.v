(** Specification vocabulary for marshalling and shared memory. *)
From Coq Require Import List NArith Arith Bool.
From Verif Require Import CodecModel MarshalModel ShmModel.
Import ListNotations.

(** What the theorems assume about pickle: loading what was dumped gives the object back. *)
Definition pickle_ok {Obj} (dumps : Obj -> bytes * list bytes) (loads : bytes -> list bytes -> option Obj) : Prop :=
  forall o, loads (fst (dumps o)) (snd (dumps o)) = Some o.

(** A reader of [mem] gets id [i] and object [o]. *)
Definition reads {Obj} (loads : bytes -> list bytes -> option Obj) (mem : bytes) (i : N) (o : Obj) : Prop :=
  msg_id_of mem = Ok i /\ obj_from_mem loads mem = Ok o.

(** A reader of slot [k] of the publisher's current segment gets id [i] and object [o]. *)
Definition slot_reads {Obj} (loads : bytes -> list bytes -> option Obj) (s : shm_pub) (k : nat) (i : N) (o : Obj) : Prop :=
  exists mem, slot (ctx s) k (seg s) = Some mem /\ reads loads mem i o.

(** The size of a message on the wire: 18 header bytes, 8 more per buffer, and the buffers. *)
Definition message_size {Obj} (dumps : Obj -> bytes * list bytes) (o : Obj) : nat :=
  18 + 8 * S (length (snd (dumps o))) + length (fst (dumps o)) + length (concat (snd (dumps o))).

(** Id and sizes (of the message, and of a segment grown for it) fit the 64-bit fields. *)
Definition sendable {Obj} (dumps : Obj -> bytes * list bytes) (n : nat) (i : N) (o : Obj) : Prop :=
  (i < 2 ^ 64)%N /\ (N.of_nat (message_size dumps o * 2 + 16 * n) < 2 ^ 64)%N.

(** States a publisher's shared memory reaches by successful broadcasts of any objects, starting
    from a segment made for [n] buffers. *)
Definition reachable {Obj} (dumps : Obj -> bytes * list bytes) (loads : bytes -> list bytes -> option Obj)
  (n : nat) (s : shm_pub) : Prop :=
  exists b sg first os, 0 < n /\ shm_create n b = Some sg /\
    shm_publish_all dumps loads {| ctx := shm_open sg; seg := sg |} first os = Some s.

(** Who holds a lease after a history, and whether somebody always did. *)
Fixpoint holders (creator : nat) (rev_ops : list seg_op) : nat -> Prop :=
  match rev_ops with
  | [] => fun c => c = creator
  | SegLease d :: h => fun c => c = d \/ holders creator h c
  | SegGone d :: h => fun c => c <> d /\ holders creator h c
  end.

Definition always_held (creator : nat) (ops : list seg_op) : Prop :=
  forall k, exists c, holders creator (rev (firstn k ops)) c.
