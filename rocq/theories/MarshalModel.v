(** Model of message marshalling. Source: /repo/src/ezmsg/core/messagemarshal.py. *)
From Coq Require Import List NArith Arith Bool.
From Coq Require Import Strings.Byte.
From Verif Require Import CodecModel.
Import ListNotations.

(** Exceptions of this module. [LoadError] is whatever pickle raises on bad input. *)
Inductive mem_error := UndersizedMemory (req_size : nat) | UninitializedMemory | ValueError | OverflowError | LoadError.

Inductive result (A : Type) := Ok (a : A) | Err (e : mem_error).
Arguments Ok {A} a.
Arguments Err {A} e.

(** messagemarshal.py:11-13 [_PREAMBLE = b"EZ"]. *)
Definition PREAMBLE : bytes := [x45; x5a].
Definition PREAMBLE_LEN : nat := 2.

(** Python slicing [mem[a:b]] of bytes/memoryviews: clamps to the length. *)
Definition slice (a b : nat) (mem : bytes) : bytes := firstn (b - a) (skipn a mem).

(** memoryview slice assignment [mem[a:b] = data]: the clamped slice must have exactly the size of
    [data], otherwise ValueError (Err) and [mem] keeps its contents. *)
Definition assign (a b : nat) (data mem : bytes) : result bytes :=
  if length (slice a b mem) =? length data
  then Ok (firstn a mem ++ data ++ skipn (a + length data) mem)
  else Err ValueError.

Section Marshal.
  (** Pickle protocol 5 with out-of-band buffers (messagemarshal.py:191-194 and :206):
      [pickle_dumps] returns the in-band stream and the raw out-of-band buffers. External. *)
  Context {Obj : Type} (pickle_dumps : Obj -> bytes * list bytes)
          (pickle_loads : bytes -> list bytes -> option Obj).

  (** messagemarshal.py:181-194 [dump]. *)
  Definition dump (o : Obj) : list bytes := fst (pickle_dumps o) :: snd (pickle_dumps o).

  (** messagemarshal.py:196-206 [load]; [buffers[0]] of an empty list is IndexError. *)
  Definition load (buffers : list bytes) : option Obj :=
    match buffers with [] => None | b0 :: bs => pickle_loads b0 bs end.

  Definition sum_len (bs : list bytes) : nat := fold_right (fun b n => length b + n) 0 bs.

  (** Encoding of the list of buffer lengths; [None] is OverflowError. *)
  Fixpoint lens_bytes (bs : list bytes) : option bytes :=
    match bs with
    | [] => Some []
    | b :: bs' =>
        match uint64_to_bytes (N.of_nat (length b)), lens_bytes bs' with
        | Some x, Some y => Some (x ++ y)
        | _, _ => None
        end
    end.

  (** messagemarshal.py:149-179 [serialize]: (total_size, header, buffers). *)
  Definition serialize (msg_id : N) (o : Obj) : result (nat * bytes * list bytes) :=
    let buffers := dump o in
    match uint64_to_bytes (N.of_nat (length buffers)), lens_bytes buffers, uint64_to_bytes msg_id with
    | Some nb, Some lb, Some ib =>
        let header := PREAMBLE ++ ib ++ nb ++ lb in
        Ok (length header + sum_len buffers, header, buffers)
    | _, _, _ => Err OverflowError
    end.

  (** messagemarshal.py:83-86: the loop over the buffers in [_write]. Returns the memory as it is
      left, and the exception if the loop was cut short by one (earlier chunks stay written). *)
  Fixpoint write_bufs (sidx : nat) (buffers : list bytes) (mem : bytes) : bytes * option mem_error :=
    match buffers with
    | [] => (mem, None)
    | buf :: rest =>
        match assign sidx (sidx + length buf) buf mem with
        | Ok mem' => write_bufs (sidx + length buf) rest mem'
        | Err e => (mem, Some e)
        end
    end.

  (** messagemarshal.py:79-86 [_write]. *)
  Definition write_mem (mem header : bytes) (buffers : list bytes) : bytes * option mem_error :=
    match assign 0 (length header) header mem with
    | Ok mem' => write_bufs (length header) buffers mem'
    | Err e => (mem, Some e)
    end.

  (** messagemarshal.py:58-77 [to_mem]: the memory as it is left and the exception raised, if any. *)
  Definition to_mem (msg_id : N) (o : Obj) (mem : bytes) : bytes * option mem_error :=
    match serialize msg_id o with
    | Err e => (mem, Some e)
    | Ok (total_size, header, buffers) =>
        if length mem <=? total_size then (mem, Some (UndersizedMemory total_size))
        else write_mem mem header buffers
    end.

  (** messagemarshal.py:88-91 [_assert_initialized]. *)
  Definition initialized (raw : bytes) : bool :=
    if list_eq_dec Byte.byte_eq_dec (slice 0 PREAMBLE_LEN raw) PREAMBLE then true else false.

  (** messagemarshal.py:93-105 [msg_id]. *)
  Definition msg_id_of (raw : bytes) : result N :=
    if initialized raw then Ok (bytes_to_uint (slice PREAMBLE_LEN (PREAMBLE_LEN + UINT64_SIZE) raw))
    else Err UninitializedMemory.

  (** messagemarshal.py:130-133: reading [n] buffer sizes from offset [sidx]. *)
  Fixpoint read_sizes (n sidx : nat) (mem : bytes) : list nat :=
    match n with
    | O => []
    | S n' => N.to_nat (bytes_to_uint (slice sidx (sidx + UINT64_SIZE) mem))
              :: read_sizes n' (sidx + UINT64_SIZE) mem
    end.

  (** messagemarshal.py:135-138: cutting the buffers. *)
  Fixpoint read_bufs (sizes : list nat) (sidx : nat) (mem : bytes) : list bytes :=
    match sizes with
    | [] => []
    | sz :: rest => slice sidx (sidx + sz) mem :: read_bufs rest (sidx + sz) mem
    end.

  (** messagemarshal.py:107-147 [obj_from_mem]: the object yielded to the [with] body. (MemoryError
      for an absurd buffer count in corrupt memory is not modelled: the list is just long.) *)
  Definition obj_from_mem (mem : bytes) : result Obj :=
    if initialized mem then
      let sidx := PREAMBLE_LEN + UINT64_SIZE in
      let num_buffers := bytes_to_uint (slice sidx (sidx + UINT64_SIZE) mem) in
      if (num_buffers =? 0)%N then Err ValueError
      else
        let sidx := sidx + UINT64_SIZE in
        let n := N.to_nat num_buffers in
        let sizes := read_sizes n sidx mem in
        match load (read_bufs sizes (sidx + n * UINT64_SIZE) mem) with
        | Some o => Ok o
        | None => Err LoadError
        end
    else Err UninitializedMemory.

  (** messagemarshal.py:208-221 [copy_obj]: the destination as it is left and the exception. *)
  Definition copy_obj (from_mem to : bytes) : bytes * option mem_error :=
    match msg_id_of from_mem with
    | Err e => (to, Some e)
    | Ok i =>
        match obj_from_mem from_mem with
        | Err e => (to, Some e)
        | Ok o => to_mem i o to
        end
    end.
End Marshal.
