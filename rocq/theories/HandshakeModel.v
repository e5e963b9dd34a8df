(* Model of the handshakes that set up a publisher, a subscriber, a channel between the two, and a
   shared-memory segment, byte by byte:
     graphserver.py:242-460    GraphServer.api: greeting, SHM_CREATE, SHM_ATTACH, CHANNEL, PUBLISH, SUBSCRIBE,
     graphserver.py:529-566, 1736-1758  _handle_client, _notify_subscriber,
     graphserver.py:1833-1842, 1938-1969  GraphService.open_connection, create_shm, attach_shm,
     pubclient.py:168-222, 366-400  Publisher.create, _channel_connect,
     messagechannel.py:136-205 Channel.create,
     subclient.py:56-92, 192-255  Subscriber.create, _graph_connection up to the first COMPLETE,
     netprotocol.py:48-94, 191-260  Address, encode_str, read_int, read_str, close_stream_writer.

   Each coroutine is a program that reads and writes connections.  A connection carries bytes both
   ways; what is written waits in the network and arrives byte by byte, as late as it likes.  Which
   coroutine goes on next, and which byte arrives next, is arbitrary.  A program does one read, one
   write or one close at a time (in the code, writes between two awaits are not interrupted; here
   they may be).

   Simplifications.  The requests not named above end with [Elsewhere] (they are in ApiModel.v,
   SessionModel.v, EventStreamModel.v, ControlModel.v).  The subscribers that the server tells of a
   new publisher before it answers are not in this model, nor are the channels that a new subscriber makes
   while it handles its first UPDATE: how these wait for each other is in JoinModel.v (C82); here
   it is shown that setting up a channel needs no command lock.  The command lock is free or is
   held throughout by somebody else. *)

From Coq Require Import List NArith ZArith Arith Bool.
From Coq Require Import Strings.Byte.
From Verif Require Import CodecModel StreamModel AddressModel Dict.
Import ListNotations.

(** ** Identifiers *)

(** uuid.UUID: a number below 2^128. *)
Notation uuid := N.

Definition hex_char (d : N) : N := (if d <? 10 then 48 + d else 87 + d)%N.

(** '%0<k>x' % n *)
Fixpoint hex_digits (k : nat) (n : N) : pystr :=
  match k with
  | 0 => []
  | S k => hex_digits k (n / 16) ++ [hex_char (n mod 16)]
  end.

(** str(uuid) of the standard library: 32 hexadecimal digits in groups of 8, 4, 4, 4 and 12. *)
Definition show_uuid (u : uuid) : pystr :=
  let h := hex_digits 32 u in
  firstn 8 h ++ [45%N] ++ firstn 4 (skipn 8 h) ++ [45%N] ++ firstn 4 (skipn 12 h) ++ [45%N]
    ++ firstn 4 (skipn 16 h) ++ [45%N] ++ skipn 20 h.

Definition hex_value (c : N) : option N :=
  (if (48 <=? c) && (c <=? 57) then Some (c - 48)
   else if (97 <=? c) && (c <=? 102) then Some (c - 87)
   else if (65 <=? c) && (c <=? 70) then Some (c - 55)
   else None)%N.

(** int(text, 16).  Simplified: no sign, space, underscore or "0x". *)
Fixpoint hex_int (s : pystr) (acc : N) : option N :=
  match s with
  | [] => Some acc
  | c :: s => match hex_value c with Some d => hex_int s (16 * acc + d) | None => None end
  end.

(** UUID(text) of the standard library, None for ValueError: hyphens are dropped, 32 digits must
    be left.  Simplified: "urn:", "uuid:" and braces are not dropped. *)
Definition parse_uuid (s : pystr) : option uuid :=
  let h := filter (fun c => negb (c =? 45)%N) s in
  if length h =? 32 then hex_int h 0 else None.

(** ",".join(...) *)
Fixpoint join_comma (l : list pystr) : pystr :=
  match l with
  | [] => []
  | [s] => s
  | s :: l => s ++ 44%N :: join_comma l
  end.

(** set([UUID(id) for id in update.split(",")]) if update else set() (subclient.py:234-236) *)
Definition parse_update (s : pystr) : option (list uuid) :=
  match s with
  | [] => Some []
  | _ =>
      fold_left (fun acc t => match acc, parse_uuid t with
                              | Some l, Some u => Some (sadd u l)
                              | _, _ => None
                              end) (split 44 s) (Some [])
  end.

(** ** Programs *)

(** The exceptions that matter: UnicodeError is a ValueError; refused connections and missing files are OSErrors;
    IncompleteReadError is an EOFError. *)
Inductive error := ValueError | OSError | EOFError | OverflowError | AssertionError.

(** GraphServer.clients: netprotocol.py:140-170.  [peer] is the host the publisher's connection
    comes from. *)
Inductive entry :=
| PublisherInfo (id : uuid) (topic : pystr) (addr : address) (peer : pystr)
| SubscriberInfo (id : uuid) (topic : pystr)
| ChannelInfo (id pub_id : uuid).

(** What a coroutine ends with. *)
Inductive outcome :=
| Publisher (id : uuid) (topic shm : pystr) (num_buffers : N)          (* Publisher.create *)
| Channel (id pub_id : uuid) (topic : pystr) (shm : option pystr) (num_buffers : N)   (* Channel.create *)
| Subscriber (id : uuid) (topic : pystr) (pubs : list uuid)            (* Subscriber.create *)
| Connected (channel_id : uuid) (pid : N) (shm_ok : bool)              (* Publisher._channel_connect: PubChannelInfo *)
| Registered (e : entry)                                               (* api: a new client *)
| Leased (shm : pystr)                                                 (* api: a lease on a segment *)
| Closed                                                               (* api: the connection is closed *)
| Elsewhere                                                            (* a request that is not in this model *)
| NoRequest                                                            (* _channel_connect, 379-380 *)
| Dead.                                                                (* its process was killed *)

Inductive prog :=
| Return (o : outcome)
| Raise (e : error)
| Forever                                               (* waits for an event that nothing sets any more *)
| Dial (c : nat) (a : address) (k : prog) (h : prog)    (* asyncio.open_connection; h: it is refused *)
| Accept (c : nat) (k : prog)                           (* start of a connection handler *)
| Write (c : nat) (b : bytes) (k : prog)                (* writer.write *)
| Read1 (c : nat) (k : option byte -> prog)             (* reader.read(1); None is b"" *)
| ReadN (c n : nat) (k : bytes -> prog) (h : prog)      (* reader.readexactly(n); h: IncompleteReadError *)
| Close (c : nat) (k : prog)                            (* close_stream_writer *)
| Lock (k : prog)                                       (* async with self._command_lock *)
| Unlock (k : prog).

(** netprotocol.py:229-240 read_int, :243-246 read_str *)
Definition rd_int (c : nat) (k : N -> prog) (h : error -> prog) : prog :=
  ReadN c UINT64_SIZE (fun raw => k (bytes_to_uint raw)) (h EOFError).
Definition rd_str (c : nat) (k : pystr -> prog) (h : error -> prog) : prog :=
  rd_int c (fun n => ReadN c (N.to_nat n) (fun b =>
    match utf8_decode b with Some s => k s | None => h ValueError end) (h EOFError)) h.

(** writer.write(encode_str(s)), writer.write(uint64_to_bytes(n)) *)
Definition wr_str (c : nat) (s : pystr) (k : prog) (h : error -> prog) : prog :=
  match encode_str s with Some b => Write c b k | None => h ValueError end.
Definition wr_int (c : nat) (n : N) (k : prog) (h : error -> prog) : prog :=
  match uint64_to_bytes n with Some b => Write c b k | None => h OverflowError end.
Definition wr_cmd (c : nat) (m : command) (k : prog) : prog := Write c [command_byte m] k.

(** UUID(await read_str(reader)); Address.from_stream(reader) *)
Definition rd_uuid (c : nat) (k : uuid -> prog) (h : error -> prog) : prog :=
  rd_str c (fun s => match parse_uuid s with Some u => k u | None => h ValueError end) h.
Definition rd_address (c : nat) (k : address -> prog) (h : error -> prog) : prog :=
  rd_str c (fun s => match from_string s with Some a => k a | None => h ValueError end) h.

(** response == Command.X.value *)
Definition is_cmd (r : option byte) (m : command) : bool :=
  match r with Some b => Byte.eqb b (command_byte m) | None => false end.

(** ** The server *)

Record server := mkServer {
  sv_version : pystr;                    (* __version__ *)
  sv_clients : list (uuid * entry);      (* GraphServer.clients *)
  sv_shms : list pystr;                  (* the keys of GraphServer.shms *)
  sv_new_shm : N -> N -> option pystr;   (* SHMInfo.create: the name of the new segment, None if it raises *)
  sv_upstream : pystr -> list uuid;      (* _upstream_pubs of a topic *)
  sv_error_closes : bool                 (* an exception of the handler closes the connection: so does asyncio from
                                            Python 3.12 on, not before *)
}.

(** An exception leaves api. *)
Definition api_error (s : server) (c : nat) (e : error) : prog :=
  if sv_error_closes s then Close c (Raise e) else Raise e.

(** graphserver.py:268-300, from the answer on; 290-300: then the lease waits for the other end to
    close. *)
Definition api_shm (s : server) (c : nat) (shm : option pystr) : prog :=
  match shm with
  | None => Close c (Return Closed)
  | Some name => wr_cmd c COMPLETE (wr_str c name (Return (Leased name)) (api_error s c))
  end.

(** graphserver.py:302-343 *)
Definition api_channel (s : server) (c : nat) (channel_id : uuid) : prog :=
  rd_uuid c (fun pub_id =>
    match get pub_id (sv_clients s) with
    | Some (PublisherInfo _ _ addr peer) =>
        wr_cmd c COMPLETE
          (wr_str c (show_uuid channel_id)
             (wr_str c (str_address (peer, snd addr))
                (Return (Registered (ChannelInfo channel_id pub_id))) (api_error s c)) (api_error s c))
    | _ => Close c (Return Closed)
    end) (api_error s c).

(** graphserver.py:426-460, under the command lock; [peer] is the host this connection comes from.
    453-454: telling the downstream subscribers is not in this model. *)
Definition api_publish (s : server) (c : nat) (peer : pystr) (id : uuid) : prog :=
  let h := fun e => Unlock (api_error s c e) in
  Lock (rd_str c (fun topic =>
    wr_str c (show_uuid id)
      (rd_address c (fun addr =>
         wr_cmd c COMPLETE (Unlock (Return (Registered (PublisherInfo id topic addr peer))))) h) h) h).

(** graphserver.py:426-445, 456-460, 1736-1758: the UPDATE, the COMPLETE that _handle_client reads (556-557; a
    lost connection ends the wait too, 562-564), the server's COMPLETE. *)
Definition api_subscribe (s : server) (c : nat) (id : uuid) : prog :=
  let h := fun e => Unlock (api_error s c e) in
  Lock (rd_str c (fun topic =>
    wr_str c (show_uuid id)
      (wr_cmd c UPDATE
         (wr_str c (join_comma (map show_uuid (sv_upstream s topic)))
            (Read1 c (fun r =>
               if is_cmd r COMPLETE then
                 wr_cmd c COMPLETE (Unlock (Return (Registered (SubscriberInfo id topic))))
               else match r with
                    | None => wr_cmd c COMPLETE (Unlock (Close c (Return Closed)))
                    | Some _ => Unlock (Return Elsewhere)
                    end)) h)) h) h).

(** graphserver.py:242-268: the greeting and the choice.  [id] is what uuid1() returns in this call. *)
Definition api (s : server) (c : nat) (peer : pystr) (id : uuid) : prog :=
  Accept c
    (wr_str c (sv_version s)
       (Read1 c (fun req =>
          match req with
          | None => Close c (Return Closed)
          | Some _ =>
              if is_cmd req SHUTDOWN then Close c (Return Closed)
              else if is_cmd req SHM_CREATE then
                rd_int c (fun num_buffers => rd_int c (fun buf_size =>
                  match sv_new_shm s num_buffers buf_size with
                  | Some name => api_shm s c (Some name)
                  | None => api_error s c ValueError
                  end) (api_error s c)) (api_error s c)
              else if is_cmd req SHM_ATTACH then
                rd_str c (fun name => api_shm s c (if mem name (sv_shms s) then Some name else None))
                  (api_error s c)
              else if is_cmd req CHANNEL then api_channel s c id
              else if is_cmd req SUBSCRIBE then api_subscribe s c id
              else if is_cmd req PUBLISH then api_publish s c peer id
              else Return Elsewhere
          end)) (api_error s c)).

(** ** The clients *)

(** graphserver.py:1833-1842: another version is only a warning. *)
Definition open_connection (c : nat) (server_at : address) (k : prog) (h : error -> prog) : prog :=
  Dial c server_at (rd_str c (fun _version => k) h) (h OSError).

(** graphserver.py:1938-1954, shm.py:96-116.  [attach name]: the segment can be opened on this host. *)
Definition create_shm (c : nat) (server_at : address) (attach : pystr -> bool) (num_buffers buf_size : N)
    (k : pystr -> prog) (h : error -> prog) : prog :=
  open_connection c server_at
    (wr_cmd c SHM_CREATE (wr_int c num_buffers (wr_int c buf_size
       (Read1 c (fun response =>
          if is_cmd response COMPLETE then
            rd_str c (fun name => if attach name then k name else h OSError) h
          else Close c (h ValueError))) h) h)) h.

(** graphserver.py:1956-1969 *)
Definition attach_shm (c : nat) (server_at : address) (attach : pystr -> bool) (name : pystr)
    (k : pystr -> prog) (h : error -> prog) : prog :=
  open_connection c server_at
    (wr_cmd c SHM_ATTACH (wr_str c name
       (Read1 c (fun response =>
          if is_cmd response COMPLETE then
            rd_str c (fun shm_name => if attach shm_name then k shm_name else h OSError) h
          else Close c (h ValueError))) h)) h.

(** pubclient.py:168-222.  [bound]: where the new socket listens (None: no port is free).  Connection [c] is the
    publisher's own, [cs] that of its segment.  204-206: an answer other than COMPLETE is only a
    warning. *)
Definition publisher_create (c cs : nat) (server_at : address) (attach : pystr -> bool) (topic : pystr)
    (num_buffers buf_size : N) (bound : option address) : prog :=
  open_connection c server_at
    (create_shm cs server_at attach num_buffers buf_size (fun shm =>
       wr_cmd c PUBLISH (wr_str c topic
         (rd_uuid c (fun pub_id =>
            match bound with
            | None => Raise OSError
            | Some a =>
                wr_str c (str_address a)
                  (Read1 c (fun _result => Return (Publisher pub_id topic shm num_buffers))) Raise
            end) Raise) Raise)) Raise) Raise.

(** pubclient.py:366-400 *)
Definition channel_connect (c : nat) (topic shm : pystr) (num_buffers : N) : prog :=
  Accept c
    (Read1 c (fun cmd =>
       match cmd with
       | None => Return NoRequest
       | Some _ =>
           if is_cmd cmd CHANNEL then
             rd_uuid c (fun channel_id =>
               wr_str c topic (wr_str c shm
                 (Read1 c (fun r =>
                    let shm_ok := is_cmd r SHM_OK in
                    rd_int c (fun pid =>
                      match uint64_to_bytes num_buffers with
                      | Some b => Write c (command_byte COMPLETE :: b) (Return (Connected channel_id pid shm_ok))
                      | None => Raise OverflowError
                      end) Raise)) Raise) Raise) Raise
           else Raise ValueError
       end)).

(** messagechannel.py:136-205.  [c]: to the graph server; [cp]: to the publisher; [cs]: for the segment.
    171-177: ValueError and OSError of attach_shm are caught. *)
Definition channel_create (c cp cs : nat) (server_at : address) (attach : pystr -> bool) (pid : N) (pub_id : uuid)
  : prog :=
  let finish := fun (id_str topic : pystr) (shm : option pystr) =>
    wr_int cp pid
      (Read1 cp (fun result =>
         if is_cmd result COMPLETE then
           rd_int cp (fun num_buffers =>
             if (0 <? num_buffers)%N then
               match parse_uuid id_str with
               | Some id => Return (Channel id pub_id topic shm num_buffers)
               | None => Raise ValueError
               end
             else Raise AssertionError) Raise
         else Raise ValueError)) Raise in
  open_connection c server_at
    (wr_cmd c CHANNEL (wr_str c (show_uuid pub_id)
       (Read1 c (fun response =>
          if is_cmd response COMPLETE then
            rd_str c (fun id_str =>
              rd_address c (fun pub_address =>
                Dial cp pub_address
                  (wr_cmd cp CHANNEL (wr_str cp id_str
                     (rd_str cp (fun topic =>
                        rd_str cp (fun shm_name =>
                          attach_shm cs server_at attach shm_name
                            (fun shm => wr_cmd cp SHM_OK (finish id_str topic (Some shm)))
                            (fun e => match e with
                                      | ValueError | OSError => wr_cmd cp SHM_ATTACH_FAILED (finish id_str topic None)
                                      | _ => Raise e
                                      end)) Raise) Raise) Raise))
                  (Raise OSError)) Raise) Raise
          else Raise ValueError)) Raise)) Raise.

(** subclient.py:56-92, 192-255: after its identifier the subscriber reads commands until the first
    COMPLETE (225); an UPDATE names its publishers (230-247, registering the channels is not in this
    model) and is answered (249-250); an unknown command is skipped (252-255), [fuel] of them at
    most in this model (the server sends none, then [Elsewhere]); if the connection ends before
    that (212-213), create() waits for ever. *)
Fixpoint sub_graph_connection (fuel : nat) (c : nat) (id : uuid) (topic : pystr) (pubs : list uuid) : prog :=
  match fuel with
  | 0 => Return Elsewhere
  | S fuel =>
      Read1 c (fun cmd =>
        match cmd with
        | None => Forever
        | Some _ =>
            if is_cmd cmd COMPLETE then Return (Subscriber id topic pubs)
            else if is_cmd cmd UPDATE then
              rd_str c (fun update =>
                match parse_update update with
                | Some ids => wr_cmd c COMPLETE (sub_graph_connection fuel c id topic ids)
                | None => Raise ValueError
                end) Raise
            else sub_graph_connection fuel c id topic pubs
        end)
  end.

Definition subscriber_create (c : nat) (server_at : address) (topic : pystr) : prog :=
  open_connection c server_at
    (wr_cmd c SUBSCRIBE (wr_str c topic
       (rd_uuid c (fun id => sub_graph_connection 3 c id topic []) Raise) Raise)) Raise.

(** ** The network *)

(** One way of a connection: bytes that have arrived and are not read, bytes on their way, whether the
    writing end is closed, whether the reader has been told. *)
Record way := mkWay { w_buf : bytes; w_wire : bytes; w_closed : bool; w_eof : bool }.

Definition fresh_way : way := mkWay [] [] false false.

(** A connection: which coroutine dials and which accepts; where the latter listens (None: it does
    not); whether it is made; the way from the dialling end, and back. *)
Record conn := mkConn {
  c_from : nat; c_to : nat; c_at : option address; c_made : bool;
  c_out : way; c_back : way
}.

(** A coroutine, and whether it holds the command lock. *)
Record proc := mkProc { p_prog : prog; p_locked : bool }.

Record net := mkNet { n_procs : list proc; n_conns : list conn; n_lock : bool (* held by somebody else *) }.

Inductive agent :=
| Run (i : nat)                     (* coroutine i goes on *)
| Deliver (c : nat) (out : bool).   (* the next byte, or the end, of one way arrives *)

Definition send (w : way) (b : bytes) : way :=
  if w_closed w then w else mkWay (w_buf w) (w_wire w ++ b) (w_closed w) (w_eof w).
Definition shut (w : way) : way := mkWay (w_buf w) (w_wire w) true (w_eof w).

(** StreamReader.read(1) and readexactly(n): None while they wait. *)
Definition take1 (w : way) : option (option byte * way) :=
  match w_buf w with
  | b :: r => Some (Some b, mkWay r (w_wire w) (w_closed w) (w_eof w))
  | [] => if w_eof w then Some (None, w) else None
  end.
Definition take (n : nat) (w : way) : option (option bytes * way) :=
  if n <=? length (w_buf w) then
    Some (Some (firstn n (w_buf w)), mkWay (skipn n (w_buf w)) (w_wire w) (w_closed w) (w_eof w))
  else if w_eof w then Some (None, w) else None.

Definition deliver (w : way) : option way :=
  if w_eof w then None
  else match w_wire w with
       | b :: r => Some (mkWay (w_buf w ++ [b]) r (w_closed w) (w_eof w))
       | [] => if w_closed w then Some (mkWay (w_buf w) [] true true) else None
       end.

(** The ends of a connection: what coroutine [i] writes to, what it reads from. *)
Definition writes (i : nat) (x : conn) (f : way -> way) : option conn :=
  if c_made x then
    if i =? c_from x then Some (mkConn (c_from x) (c_to x) (c_at x) true (f (c_out x)) (c_back x))
    else if i =? c_to x then Some (mkConn (c_from x) (c_to x) (c_at x) true (c_out x) (f (c_back x)))
    else None
  else None.

Definition reads {A} (i : nat) (x : conn) (f : way -> option (A * way)) : option (A * conn) :=
  if c_made x then
    if i =? c_from x then
      match f (c_back x) with
      | Some (a, w) => Some (a, mkConn (c_from x) (c_to x) (c_at x) true (c_out x) w)
      | None => None
      end
    else if i =? c_to x then
      match f (c_out x) with
      | Some (a, w) => Some (a, mkConn (c_from x) (c_to x) (c_at x) true w (c_back x))
      | None => None
      end
    else None
  else None.

Definition address_dec : forall a b : address, {a = b} + {a <> b}.
Proof. decide equality; [apply Z.eq_dec|apply list_eq_dec, N.eq_dec]. Defined.

(** The connection a program is about to use. *)
Definition uses (p : prog) : option nat :=
  match p with
  | Dial c _ _ _ | Accept c _ | Write c _ _ | Read1 c _ | ReadN c _ _ _ | Close c _ => Some c
  | _ => None
  end.

(** One action of coroutine [i] on that connection; None: it waits. *)
Definition act (i : nat) (p : prog) (x : conn) : option (prog * conn) :=
  match p with
  | Dial _ a k h =>
      if (i =? c_from x) && negb (c_made x) then
        match c_at x with
        | Some a' =>
            if address_dec a a' then
              Some (k, mkConn (c_from x) (c_to x) (c_at x) true (c_out x) (c_back x))
            else Some (h, x)
        | None => Some (h, x)
        end
      else None
  | Accept _ k => if (i =? c_to x) && negb (i =? c_from x) && c_made x then Some (k, x) else None
  | Write _ b k => option_map (pair k) (writes i x (fun w => send w b))
  | Close _ k => option_map (pair k) (writes i x shut)
  | Read1 _ k => option_map (fun r => (k (fst r), snd r)) (reads i x take1)
  | ReadN _ n k h =>
      option_map (fun r => (match fst r with Some b => k b | None => h end, snd r)) (reads i x (take n))
  | _ => None
  end.

Fixpoint set_nth {A} (i : nat) (x : A) (l : list A) : list A :=
  match l, i with
  | [], _ => []
  | _ :: l, 0 => x :: l
  | y :: l, S i => y :: set_nth i x l
  end.

Definition step (a : agent) (n : net) : option net :=
  match a with
  | Run i =>
      match nth_error (n_procs n) i with
      | None => None
      | Some p =>
          match p_prog p with
          | Lock k =>
              if n_lock n then None
              else Some (mkNet (set_nth i (mkProc k true) (n_procs n)) (n_conns n) (n_lock n))
          | Unlock k => Some (mkNet (set_nth i (mkProc k false) (n_procs n)) (n_conns n) (n_lock n))
          | pr =>
              match uses pr with
              | None => None
              | Some c =>
                  match nth_error (n_conns n) c with
                  | None => None
                  | Some x =>
                      match act i pr x with
                      | None => None
                      | Some (pr', x') =>
                          Some (mkNet (set_nth i (mkProc pr' (p_locked p)) (n_procs n))
                                      (set_nth c x' (n_conns n)) (n_lock n))
                      end
                  end
              end
          end
      end
  | Deliver c out =>
      match nth_error (n_conns n) c with
      | None => None
      | Some x =>
          if out then
            option_map (fun w => mkNet (n_procs n)
                (set_nth c (mkConn (c_from x) (c_to x) (c_at x) (c_made x) w (c_back x)) (n_conns n)) (n_lock n))
              (deliver (c_out x))
          else
            option_map (fun w => mkNet (n_procs n)
                (set_nth c (mkConn (c_from x) (c_to x) (c_at x) (c_made x) (c_out x) w) (n_conns n)) (n_lock n))
              (deliver (c_back x))
      end
  end.

Fixpoint run (sched : list agent) (n : net) : option net :=
  match sched with
  | [] => Some n
  | a :: sched => match step a n with Some n => run sched n | None => None end
  end.

(** The process of coroutine [i] is killed: the operating system closes its end of each connection,
    and nobody listens there any more.  Simplified: the other end reads what had been written and then
    the end of the stream (never ConnectionResetError). *)
Definition kill (i : nat) (n : net) : net :=
  mkNet (set_nth i (mkProc (Return Dead) false) (n_procs n))
    (map (fun x =>
       mkConn (c_from x) (c_to x)
         (if (i =? c_to x) && negb (c_made x) then None else c_at x) (c_made x)
         (if i =? c_from x then shut (c_out x) else c_out x)
         (if i =? c_to x then shut (c_back x) else c_back x)) (n_conns n))
    (n_lock n).

(** ** The situations *)

Definition start (p : prog) : proc := mkProc p false.
Definition new_conn (dialler acceptor : nat) (at_ : option address) : conn :=
  mkConn dialler acceptor at_ false fresh_way fresh_way.

(** Publisher.create against a server: one connection for the publisher, one for its segment. *)
Definition publisher_net (s : server) (server_at : address) (peer : pystr) (id : uuid) (lock : bool)
    (attach : pystr -> bool) (topic : pystr) (num_buffers buf_size : N) (bound : option address) : net :=
  mkNet [start (publisher_create 0 1 server_at attach topic num_buffers buf_size bound);
         start (api s 0 peer id); start (api s 1 peer id)]
        [new_conn 0 1 (Some server_at); new_conn 0 2 (Some server_at)] lock.

(** Channel.create against a server and a publisher that listens at [pub_at] (None: it is gone); the
    third connection is that for the segment. *)
Definition channel_net (s : server) (server_at : address) (peer : pystr) (id : uuid) (lock : bool)
    (attach : pystr -> bool) (pid : N) (pub_id : uuid)
    (pub_at : option address) (topic shm : pystr) (num_buffers : N) : net :=
  mkNet [start (channel_create 0 1 2 server_at attach pid pub_id);
         start (api s 0 peer id); start (channel_connect 1 topic shm num_buffers); start (api s 2 peer id)]
        [new_conn 0 1 (Some server_at); new_conn 0 2 pub_at; new_conn 0 3 (Some server_at)] lock.

(** Subscriber.create against a server. *)
Definition subscriber_net (s : server) (server_at : address) (peer : pystr) (id : uuid) (lock : bool)
    (topic : pystr) : net :=
  mkNet [start (subscriber_create 0 server_at topic); start (api s 0 peer id)]
        [new_conn 0 1 (Some server_at)] lock.
