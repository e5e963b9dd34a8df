(** Model of shared-memory segments and of the publisher's use of them.
    Sources: /repo/src/ezmsg/core/shm.py, /repo/src/ezmsg/core/pubclient.py:475-569,
    /repo/src/ezmsg/core/graphserver.py:262-305. *)
From Coq Require Import List NArith Arith Bool.
From Coq Require Import Strings.Byte.
From Verif Require Import CodecModel MarshalModel.
Import ListNotations.

(** A segment: its bytes. *)
Definition segment := bytes.

(** shm.py:217-224 [SHMInfo.create]. SharedMemory may round the size up to a page; the extra bytes
    are never addressed, so the model allocates the requested size. [b"0"] is the digit 0x30.
    [None]: OverflowError for a size or count beyond 64 bits. The segment must be at least 16 bytes
    for the header to be written ([assign] raises otherwise). *)
Definition shm_create (num_buffers buf_size : nat) : option segment :=
  let buf_size := buf_size + 16 * num_buffers in
  match uint64_to_bytes (N.of_nat num_buffers), uint64_to_bytes (N.of_nat buf_size) with
  | Some nb, Some sb =>
      match assign 0 8 nb (repeat x30 (num_buffers * buf_size)) with
      | Ok seg => match assign 8 16 sb seg with Ok seg' => Some seg' | Err _ => None end
      | Err _ => None
      end
  | _, _ => None
  end.

(** shm.py:71-94 [SHMContext.__init__]: what a process mapping the segment computes. *)
Record shm_ctx := { num_buffers : nat; buf_size : nat }.

Definition shm_open (seg : segment) : shm_ctx :=
  {| num_buffers := N.to_nat (bytes_to_uint (slice 0 8 seg));
     buf_size := N.to_nat (bytes_to_uint (slice 8 16 seg)) |}.

(** shm.py:88-94: data block [i] is the slice from [slot_start] to [slot_stop]. *)
Definition slot_start (c : shm_ctx) (i : nat) : nat := i * buf_size c + 16.
Definition slot_stop (c : shm_ctx) (i : nat) : nat := i * buf_size c + buf_size c.

(** shm.py:130-163 [__getitem__]/[buffer]: the bytes of a slot; [None] is IndexError. *)
Definition slot (c : shm_ctx) (i : nat) (seg : segment) : option bytes :=
  if i <? num_buffers c then Some (slice (slot_start c i) (slot_stop c i) seg) else None.

(** Writing through the memoryview of a slot changes the segment in place. *)
Definition set_slot (c : shm_ctx) (i : nat) (data : bytes) (seg : segment) : segment :=
  firstn (slot_start c i) seg ++ data ++ skipn (slot_start c i + length data) seg.

Section Publisher.
  Context {Obj : Type} (pickle_dumps : Obj -> bytes * list bytes)
          (pickle_loads : bytes -> list bytes -> option Obj).

  (** pubclient.py:514-523: copying every slot of the old segment to the new one. [None]: an
      exception other than UninitializedMemory escapes. *)
  Fixpoint copy_slots (old : shm_ctx) (oseg : segment) (new : shm_ctx) (is : list nat) (nseg : segment)
    : option segment :=
    match is with
    | [] => Some nseg
    | i :: is' =>
        match slot old i oseg, slot new i nseg with
        | Some from, Some to =>
            match copy_obj pickle_dumps pickle_loads from to with
            | (to', None) => copy_slots old oseg new is' (set_slot new i to' nseg)
            | (_, Some UninitializedMemory) => copy_slots old oseg new is' nseg
            | (_, Some _) => None
            end
        | _, _ => None
        end
    end.

  (** The publisher's view: its segment. [num_buffers] of the publisher is the segment's. *)
  Record shm_pub := { ctx : shm_ctx; seg : segment }.

  Inductive publish_result :=
  | Published (s : shm_pub)
  | PublishRaised (s : shm_pub) (e : mem_error)  (** broadcast raised; [s] is the memory left behind *)
  | ResizeFailed.                                (** the bigger segment could not be made *)

  (** pubclient.py:499-533: the shared-memory part of [broadcast]: serialise, grow if
      [buf_size < total_size], then [_write] into slot [msg_id % num_buffers]. *)
  Definition shm_publish (s : shm_pub) (msg_id : N) (o : Obj) : publish_result :=
    match serialize pickle_dumps msg_id o with
    | Err e => PublishRaised s e
    | Ok (total_size, header, buffers) =>
        let grown :=
          if buf_size (ctx s) <? total_size then
            match shm_create (num_buffers (ctx s)) (total_size * 2) with
            | None => None
            | Some nseg =>
                let nctx := shm_open nseg in
                match copy_slots (ctx s) (seg s) nctx (seq 0 (num_buffers (ctx s))) nseg with
                | Some nseg' => Some {| ctx := nctx; seg := nseg' |}
                | None => None
                end
            end
          else Some s in
        match grown with
        | None => ResizeFailed
        | Some s' =>
            let i := N.to_nat (msg_id mod N.of_nat (num_buffers (ctx s'))) in
            match slot (ctx s') i (seg s') with
            | None => ResizeFailed
            | Some mem =>
                let '(mem', e) := write_mem mem header buffers in
                let s'' := {| ctx := ctx s'; seg := set_slot (ctx s') i mem' (seg s') |} in
                match e with None => Published s'' | Some e => PublishRaised s'' e end
            end
        end
    end.

  (** A run of broadcasts with consecutive message ids starting at [first]. *)
  Fixpoint shm_publish_all (s : shm_pub) (first : N) (os : list Obj) : option shm_pub :=
    match os with
    | [] => Some s
    | o :: os' =>
        match shm_publish s first o with
        | Published s' => shm_publish_all s' (first + 1) os'
        | _ => None
        end
    end.
End Publisher.

(** ** Lease lifetime (shm.py:205-262, graphserver.py:265-300) *)

(** One shared-memory segment as the graph server sees it. Lease tasks are identified by the
    connection they belong to (a fresh number per connection). *)
Record seg_life := { linked : bool; leases : list nat }.

Inductive seg_op :=
| SegLease (c : nat)    (** a client connects with SHM_CREATE/SHM_ATTACH for this segment *)
| SegGone (c : nat).    (** that client's connection ends (EOF, reset, server shutdown) *)

(** graphserver.py:272-277 and shm.py:217-224: creation links the segment; the creating connection
    leases it immediately (graphserver.py:300). *)
Definition seg_created (creator : nat) : seg_life := {| linked := true; leases := [creator] |}.

(** shm.py:226-254 [lease] and :256-262 [_release]. The server never forgets a segment
    (graphserver.py:282 looks it up in a dict that is never pruned), so a lease can be taken even
    after the segment was unlinked; unlinking twice raises inside the callback and changes nothing. *)
Definition seg_step (s : seg_life) (op : seg_op) : seg_life :=
  match op with
  | SegLease c => {| linked := linked s; leases := if existsb (Nat.eqb c) (leases s) then leases s else leases s ++ [c] |}
  | SegGone c =>
      if existsb (Nat.eqb c) (leases s) then
        let l := filter (fun d => negb (Nat.eqb c d)) (leases s) in
        {| linked := linked s && negb (match l with [] => true | _ => false end); leases := l |}
      else s
  end.

Definition seg_run (creator : nat) (ops : list seg_op) : seg_life := fold_left seg_step ops (seg_created creator).
