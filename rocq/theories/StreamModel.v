(** Model of reading the protocol from an asyncio stream.
    Sources: /repo/src/ezmsg/core/netprotocol.py:229-246,
             /repo/src/ezmsg/core/messagechannel.py:250-319,
             /repo/src/ezmsg/core/pubclient.py:402-437 and :535-559. *)
From Coq Require Import List NArith Arith Bool.
From Coq Require Import Strings.Byte.
From Verif Require Import CodecModel.
Import ListNotations.

(** A coroutine reading from an [asyncio.StreamReader]: it either returns, raises, or awaits
    exactly [n] more bytes ([reader.readexactly(n)]; [reader.read(1)] is [n = 1] as long as the
    peer has not closed, the closed case is [eof] below). *)
Inductive reader (A : Type) : Type :=
| Ret (a : A)
| Raise
| ReadN (n : nat) (k : bytes -> reader A).
Arguments Ret {A} a.
Arguments Raise {A}.
Arguments ReadN {A} n k.

Fixpoint bind {A B} (r : reader A) (f : A -> reader B) : reader B :=
  match r with
  | Ret a => f a
  | Raise => Raise
  | ReadN n k => ReadN n (fun b => bind (k b) f)
  end.

(** netprotocol.py:229-240 [read_int]. *)
Definition read_int : reader N := ReadN UINT64_SIZE (fun raw => Ret (bytes_to_uint raw)).

(** netprotocol.py:243-246 [read_str]; [Raise] is UnicodeDecodeError. *)
Definition read_str : reader pystr :=
  bind read_int (fun str_size =>
    ReadN (N.to_nat str_size) (fun str_bytes =>
      match utf8_decode str_bytes with Some s => Ret s | None => Raise end)).

(** What a coroutine does with the bytes buffered so far. *)
Inductive outcome (A : Type) : Type :=
| Done (a : A) (rest : bytes)            (** returned, [rest] still buffered *)
| Blocked (r : reader A) (rest : bytes)  (** suspended in [r], waiting for more bytes *)
| Failed.                                (** raised *)
Arguments Done {A} a rest.
Arguments Blocked {A} r rest.
Arguments Failed {A}.

(** asyncio StreamReader.readexactly: takes [n] bytes when available, otherwise waits. *)
Fixpoint run {A} (r : reader A) (buf : bytes) : outcome A :=
  match r with
  | Ret a => Done a buf
  | Raise => Failed
  | ReadN n k =>
      if n <=? length buf then run (k (firstn n buf)) (skipn n buf)
      else Blocked (ReadN n k) buf
  end.

(** A connection loop [while True: <body>]: the coroutine is suspended somewhere in the body with
    some bytes buffered, or the loop has ended with an exception. *)
Inductive conn (M : Type) : Type :=
| Waiting (cur : reader M) (buf : bytes)
| Dead.
Arguments Waiting {M} cur buf.
Arguments Dead {M}.

(** Run the loop as far as the buffered bytes allow, collecting completed iterations.
    [fuel] bounds the number of iterations; [feed] supplies enough (each iteration consumes at
    least one byte, proved as [loop_fuel_enough]). *)
Fixpoint loop {M} (fuel : nat) (body cur : reader M) (buf : bytes) : list M * conn M :=
  match run cur buf with
  | Failed => ([], Dead)
  | Blocked r rest => ([], Waiting r rest)
  | Done m rest =>
      match fuel with
      | O => ([m], Waiting body rest)
      | S f => let '(ms, st) := loop f body body rest in (m :: ms, st)
      end
  end.

(** The transport delivers [chunk] (StreamReader.feed_data), then the loop task runs. *)
Definition feed {M} (body : reader M) (st : conn M) (chunk : bytes) : list M * conn M :=
  match st with
  | Dead => ([], Dead)
  | Waiting cur buf => let b := buf ++ chunk in loop (S (length b)) body cur b
  end.

(** Delivery of a sequence of chunks. *)
Fixpoint feeds {M} (body : reader M) (st : conn M) (chunks : list bytes) : list M * conn M :=
  match chunks with
  | [] => ([], st)
  | c :: cs =>
      let '(ms1, st1) := feed body st c in
      let '(ms2, st2) := feeds body st1 cs in
      (ms1 ++ ms2, st2)
  end.

(** When the peer closes, the loop ends without delivering anything more (b"" from [read(1)], or
    IncompleteReadError in the middle of a message: messagechannel.py:256-259 and :309;
    pubclient.py:420-423), so what a connection delivers is the first component of [feeds]. *)

(** ** Publisher -> channel frames *)

Inductive frame :=
| F_SHM (msg_id : N) (shm_name : pystr)
| F_TCP (msg_id : N) (obj_bytes : bytes).

(** pubclient.py:541-555: the bytes written to a channel for one message. [None]: the message
    cannot be encoded (id or size beyond 64 bits, name not encodable). *)
Definition write_frame (f : frame) : option bytes :=
  match f with
  | F_SHM i name =>
      match uint64_to_bytes i, encode_str name with
      | Some ib, Some nb => Some (command_byte TX_SHM :: ib ++ nb)
      | _, _ => None
      end
  | F_TCP i ob =>
      match uint64_to_bytes i, uint64_to_bytes (N.of_nat (length ob)) with
      | Some ib, Some sb => Some (command_byte TX_TCP :: ib ++ sb ++ ob)
      | _, _ => None
      end
  end.

(** messagechannel.py:256-300, the reading part of one iteration. [Raise] is
    ValueError("unimplemented data telemetry"). *)
Definition read_frame : reader frame :=
  ReadN 1 (fun msg =>
    bind read_int (fun msg_id =>
      if list_eq_dec Byte.byte_eq_dec msg [command_byte TX_SHM] then
        bind read_str (fun shm_name => Ret (F_SHM msg_id shm_name))
      else if list_eq_dec Byte.byte_eq_dec msg [command_byte TX_TCP] then
        bind read_int (fun buf_size =>
          ReadN (N.to_nat buf_size) (fun obj_bytes => Ret (F_TCP msg_id obj_bytes)))
      else Raise)).

(** ** Channel -> publisher acknowledgements *)

(** messagechannel.py:418-421 [_acknowledge]. *)
Definition write_ack (msg_id : N) : option bytes :=
  match uint64_to_bytes msg_id with
  | Some b => Some (command_byte RX_ACK :: b)
  | None => None
  end.

(** pubclient.py:419-428: one iteration; an unknown byte is skipped ([None]). *)
Definition read_ack : reader (option N) :=
  ReadN 1 (fun msg =>
    if list_eq_dec Byte.byte_eq_dec msg [command_byte RX_ACK] then
      bind read_int (fun i => Ret (Some i))
    else Ret None).

(** ** Generic field sequences (handshakes are such sequences, e.g. messagechannel.py:153-188,
    pubclient.py:386-395) *)

Inductive field :=
| FCmd (c : command)
| FInt (n : N)
| FStr (s : pystr)
| FBlock (b : bytes).

(** What the reader must know beforehand: the kind of each field, and the size of raw blocks. *)
Inductive kind := KCmd | KInt | KStr | KBlock (size : nat).

Definition write_field (f : field) : option bytes :=
  match f with
  | FCmd c => command_value c
  | FInt n => uint64_to_bytes n
  | FStr s => encode_str s
  | FBlock b => Some b
  end.

Fixpoint write_fields (fs : list field) : option bytes :=
  match fs with
  | [] => Some []
  | f :: fs' =>
      match write_field f, write_fields fs' with
      | Some a, Some b => Some (a ++ b)
      | _, _ => None
      end
  end.

(** [Command(byte)]: enum lookup by value; [None] is ValueError. *)
Definition command_of_bytes (b : bytes) : option command :=
  find (fun c => match command_value c with
                 | Some v => if list_eq_dec Byte.byte_eq_dec b v then true else false
                 | None => false end)
       all_commands.

Definition read_field (k : kind) : reader field :=
  match k with
  | KCmd => ReadN 1 (fun b => match command_of_bytes b with Some c => Ret (FCmd c) | None => Raise end)
  | KInt => bind read_int (fun n => Ret (FInt n))
  | KStr => bind read_str (fun s => Ret (FStr s))
  | KBlock n => ReadN n (fun b => Ret (FBlock b))
  end.

Fixpoint read_fields (ks : list kind) : reader (list field) :=
  match ks with
  | [] => Ret []
  | k :: ks' => bind (read_field k) (fun f => bind (read_fields ks') (fun fs => Ret (f :: fs)))
  end.

(** The kind of each field, as the protocol fixes it in advance on both sides. *)
Definition kind_of (f : field) : kind :=
  match f with FCmd _ => KCmd | FInt _ => KInt | FStr _ => KStr | FBlock b => KBlock (length b) end.

(** A peer writing several items one after another on the same connection. *)
Fixpoint write_all {W} (write : W -> option bytes) (ws : list W) : option bytes :=
  match ws with
  | [] => Some []
  | w :: ws' => match write w, write_all write ws' with Some a, Some b => Some (a ++ b) | _, _ => None end
  end.
