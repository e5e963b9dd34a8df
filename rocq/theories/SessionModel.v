(** A session of a graph context: from the caller over the connection to the server and back.
    Models
      graphcontext.py:157-195, 356-426, 590-618, 774-791   which command each method sends, and what
                                                          it makes of the answer,
      graphcontext.py:246-251, 333-354   _require_session, _session_command,
      graphcontext.py:253-310            _session_io_loop,
      graphcontext.py:312-331            _close_session,
      graphserver.py:568-643             _handle_session,
      graphserver.py:1323-1348, 1532-1600, 1602-1637   how the requests are read and answered,
    on top of the byte formats and stream readers of CodecModel and StreamModel.

    Simplifications.  What a request does to the server is not modelled here (it is in ServerModel):
    the server may give any answer of the right shape.  [loads] is pickle.loads, of which only the
    value or the failure counts; [int_ok] and [float_ok] say which texts int() and float() accept.
    A reader that waits for more bytes starts over when they come, which makes no difference
    (StreamProofs.run_app).  Callers are numbered in the order of their calls. *)
From Coq Require Import List NArith Arith Bool.
From Coq Require Import Strings.Byte.
From Verif Require Import CodecModel StreamModel.
Import ListNotations.

(** The methods of a graph context that use the session. *)
Inductive call :=
| Connect (f t : pystr)                               (* 157 *)
| Disconnect (f t : pystr)                            (* 178 *)
| Clear                                               (* 774, revert *)
| Register (payload : bytes)                          (* 356, register_metadata *)
| Snapshot                                            (* 396 *)
| SettingsSnapshot                                    (* 405 *)
| SettingsEvents (after : pystr)                      (* 416: str(after_seq) *)
| ProcessRequest (u op timeout : pystr) (payload : bytes).   (* 590: str(timeout) *)

Inductive response_kind := BYTE | PICKLED.

(** 45-58 *)
Record session_command := Cmd {
  sc_op : command; sc_args : list pystr; sc_payload : option bytes; sc_kind : response_kind }.

Definition command_of (c : call) : session_command :=
  match c with
  | Connect f t => Cmd SESSION_CONNECT [f; t] None BYTE
  | Disconnect f t => Cmd SESSION_DISCONNECT [f; t] None BYTE
  | Clear => Cmd SESSION_CLEAR [] None BYTE
  | Register p => Cmd SESSION_REGISTER [] (Some p) BYTE
  | Snapshot => Cmd SESSION_SNAPSHOT [] None PICKLED
  | SettingsSnapshot => Cmd SESSION_SETTINGS_SNAPSHOT [] None PICKLED
  | SettingsEvents a => Cmd SESSION_SETTINGS_EVENTS [a] None PICKLED
  | ProcessRequest u op t p => Cmd SESSION_PROCESS_REQUEST [u; op; t] (Some p) PICKLED
  end.

(** 268-269: each argument is written when it is encoded; [false]: one could not be. *)
Fixpoint write_args (l : list pystr) : bytes * bool :=
  match l with
  | [] => ([], true)
  | a :: r => match encode_str a with
              | None => ([], false)
              | Some b => let (bs, ok) := write_args r in (b ++ bs, ok)
              end
  end.

(** 267-272: what is written, and whether all of it could be. *)
Definition write_command (c : session_command) : bytes * bool :=
  let (a, ok) := write_args (sc_args c) in
  if negb ok then (command_byte (sc_op c) :: a, false)
  else match sc_payload c with
       | None => (command_byte (sc_op c) :: a, true)
       | Some p => match uint64_to_bytes (N.of_nat (length p)) with
                   | None => (command_byte (sc_op c) :: a, false)
                   | Some n => (command_byte (sc_op c) :: a ++ n ++ p, true)
                   end
       end.

(** What the server answers. *)
Inductive answer := AByte (c : command) | APickled (payload : bytes).

Section Session.
Variable V : Type.                                    (* Python objects *)
Variable loads : bytes -> option V.
Variable int_ok float_ok : pystr -> bool.

(** graphserver.py:578-628, 1323-1334, 1538-1539, 1579-1583: reading a request.  [None]: the command
    is not known, and there is no answer.  [Raise]: the session ends. *)
Definition read_request : reader (option call) :=
  ReadN 1 (fun req =>
    match command_of_bytes req with
    | Some SESSION_CONNECT => bind read_str (fun f => bind read_str (fun t => Ret (Some (Connect f t))))
    | Some SESSION_DISCONNECT => bind read_str (fun f => bind read_str (fun t => Ret (Some (Disconnect f t))))
    | Some SESSION_CLEAR => Ret (Some Clear)
    | Some SESSION_REGISTER => bind read_int (fun n => ReadN (N.to_nat n) (fun p => Ret (Some (Register p))))
    | Some SESSION_SNAPSHOT => Ret (Some Snapshot)
    | Some SESSION_SETTINGS_SNAPSHOT => Ret (Some SettingsSnapshot)
    | Some SESSION_SETTINGS_EVENTS =>
        bind read_str (fun a => if int_ok a then Ret (Some (SettingsEvents a)) else Raise)
    | Some SESSION_PROCESS_REQUEST =>
        bind read_str (fun u => bind read_str (fun op => bind read_str (fun t =>
          if float_ok t
          then bind read_int (fun n => ReadN (N.to_nat n) (fun p => Ret (Some (ProcessRequest u op t p))))
          else Raise)))
    | _ => Ret None
    end).

(** The answers the handlers give: 1532-1566 (edges), 1568-1574 (clear), 1576-1600 (register), and
    pickled values for the rest. *)
Definition fits (c : call) (a : answer) : bool :=
  match c, a with
  | Connect _ _, AByte COMPLETE | Connect _ _, AByte CYCLIC => true
  | Disconnect _ _, AByte COMPLETE | Disconnect _ _, AByte CYCLIC => true
  | Clear, AByte COMPLETE => true
  | Register _, AByte COMPLETE | Register _, AByte ERROR => true
  | Snapshot, APickled _ | SettingsSnapshot, APickled _ | SettingsEvents _, APickled _
  | ProcessRequest _ _ _ _, APickled _ => true
  | _, _ => false
  end.

(** 590-591, 595-596, 602-603, 1343-1348, 1607-1610: the answer on the connection. *)
Definition write_answer (a : answer) : option bytes :=
  match a with
  | AByte c => Some [command_byte c]
  | APickled p => match uint64_to_bytes (N.of_nat (length p)) with
                  | None => None
                  | Some n => Some (n ++ p ++ [command_byte COMPLETE])
                  end
  end.

(** What the caller gets: the byte (none at all, if the connection has ended), or the value. *)
Inductive response := RByte (b : bytes) | RValue (v : V).

(** graphcontext.py:275-288: reading the answer *)
Definition read_response (k : response_kind) : reader response :=
  match k with
  | BYTE => ReadN 1 (fun b => Ret (RByte b))
  | PICKLED =>
      bind read_int (fun n => ReadN (N.to_nat n) (fun p => ReadN 1 (fun c =>
        if list_eq_dec Byte.byte_eq_dec c [command_byte COMPLETE]
        then match loads p with Some v => Ret (RValue v) | None => Raise end
        else Raise)))
  end.

(** How a call stands: the caller waits; it got a response; it got an exception; it was cancelled. *)
Inductive outcome := Pending | Got (r : response) | Failed | Cancelled.

Inductive io_loop := Idle | Busy (j : nat) (k : response_kind) | Ended.

Record session := Session {
  queue : list (option (nat * session_command));  (* _session_commands; None: the session is closed *)
  loop : io_loop;
  up : bytes;                                     (* written by the client and on the way *)
  sbuf : bytes;                                   (* arrived at the server *)
  srv : bool;                                     (* the server's side is open *)
  down : bytes; cbuf : bytes;                     (* the same in the other direction *)
  calls : list call;                              (* all calls so far *)
  outs : list outcome;                            (* and how they stand *)
  executed : list (call * answer) }.              (* the requests the server has answered *)

Definition start : session := Session [] Idle [] [] true [] [] [] [] [].

Fixpoint set_out (l : list outcome) (j : nat) (o : outcome) : list outcome :=
  match l, j with
  | [], _ => []
  | Pending :: r, 0 => o :: r                     (* if not response_fut.done() *)
  | x :: r, 0 => x :: r
  | x :: r, S j => x :: set_out r j o
  end.

(** 293-310: all that are queued get an exception; the loop ends. *)
Definition end_loop (s : session) : session :=
  Session [] Ended (up s) (sbuf s) (srv s) (down s) (cbuf s) (calls s)
    (fold_left (fun o q => match q with Some (j, _) => set_out o j Failed | None => o end) (queue s) (outs s))
    (executed s).

(** 290-291, and the loop goes on *)
Definition respond (j : nat) (r : response) (rest : bytes) (s : session) : session :=
  Session (queue s) Idle (up s) (sbuf s) (srv s) (down s) rest (calls s) (set_out (outs s) j (Got r)) (executed s).

Inductive event :=
| Call (c : call)            (* 333-354 *)
| Cancel (j : nat)           (* the caller of the j-th call is cancelled *)
| Close                      (* 320: None is put in the queue *)
| Take (lost : bool)         (* 263-273; [lost]: drain() raises because the connection is lost *)
| Up (n : nat)               (* n bytes arrive at the server *)
| Serve (a : answer)         (* the server has read a request, executes it and answers, in one step *)
| Ignore                     (* it has read an unknown command *)
| ServerRaises               (* reading or answering a request raises: the session ends, 633-643 *)
| ServerCloses               (* the server is stopped or dies *)
| Down (n : nat)             (* n bytes arrive at the client *)
| Respond                    (* 275-291 *)
| Eof                        (* the client reads the end of the connection *)
| ConnReset                   (* reading raises, because the connection is lost *)
| LoopCancelled.             (* the task of the loop is cancelled *)

Definition close_srv (s : session) : session :=
  Session (queue s) (loop s) (up s) (sbuf s) false (down s) (cbuf s) (calls s) (outs s) (executed s).

(** [None]: the event cannot happen now. *)
Definition step (s : session) (e : event) : option session :=
  match e with
  | Call c =>
      match loop s with
      | Ended => (* 340-341 *)
          Some (Session (queue s) (loop s) (up s) (sbuf s) (srv s) (down s) (cbuf s) (calls s ++ [c]) (outs s ++ [Failed]) (executed s))
      | _ =>
          Some (Session (queue s ++ [Some (length (calls s), command_of c)]) (loop s) (up s) (sbuf s) (srv s) (down s) (cbuf s)
                  (calls s ++ [c]) (outs s ++ [Pending]) (executed s))
      end
  | Cancel j =>
      Some (Session (queue s) (loop s) (up s) (sbuf s) (srv s) (down s) (cbuf s) (calls s) (set_out (outs s) j Cancelled) (executed s))
  | Close =>
      Some (Session (queue s ++ [None]) (loop s) (up s) (sbuf s) (srv s) (down s) (cbuf s) (calls s) (outs s) (executed s))
  | Take lost =>
      match loop s, queue s with
      | Idle, None :: q =>
          Some (end_loop (Session q Idle (up s) (sbuf s) (srv s) (down s) (cbuf s) (calls s) (outs s) (executed s)))
      | Idle, Some (j, c) :: q =>
          let (b, ok) := write_command c in
          let s' := Session q (Busy j (sc_kind c)) (up s ++ b) (sbuf s) (srv s) (down s) (cbuf s) (calls s) (outs s) (executed s) in
          Some (if ok && negb lost then s' else end_loop s')
      | _, _ => None
      end
  | Up n =>
      if (0 <? n) && (n <=? length (up s)) then
        Some (Session (queue s) (loop s) (skipn n (up s)) (sbuf s ++ firstn n (up s)) (srv s) (down s) (cbuf s) (calls s) (outs s) (executed s))
      else None
  | Serve a =>
      if srv s then
        match run read_request (sbuf s) with
        | Done (Some c) rest =>
            match fits c a, write_answer a with
            | true, Some b =>
                Some (Session (queue s) (loop s) (up s) rest (srv s) (down s ++ b) (cbuf s) (calls s) (outs s) (executed s ++ [(c, a)]))
            | _, _ => None
            end
        | _ => None
        end
      else None
  | Ignore =>
      if srv s then
        match run read_request (sbuf s) with
        | Done None rest =>
            Some (Session (queue s) (loop s) (up s) rest (srv s) (down s) (cbuf s) (calls s) (outs s) (executed s))
        | _ => None
        end
      else None
  | ServerRaises =>
      if srv s then
        match run read_request (sbuf s) with StreamModel.Failed => Some (close_srv s) | _ => None end
      else None
  | ServerCloses => Some (close_srv s)
  | Down n =>
      if (0 <? n) && (n <=? length (down s)) then
        Some (Session (queue s) (loop s) (up s) (sbuf s) (srv s) (skipn n (down s)) (cbuf s ++ firstn n (down s)) (calls s) (outs s) (executed s))
      else None
  | Respond =>
      match loop s with
      | Busy j k =>
          match run (read_response k) (cbuf s) with
          | Done r rest => Some (respond j r rest s)
          | StreamModel.Failed => Some (end_loop s)
          | Blocked _ _ => None
          end
      | _ => None
      end
  | Eof =>
      match loop s, srv s, down s with
      | Busy j k, false, [] =>
          match run (read_response k) (cbuf s) with
          | Blocked _ _ =>
              match k with
              | BYTE => Some (respond j (RByte []) (cbuf s) s)      (* read(1) returns b"" *)
              | PICKLED => Some (end_loop s)                         (* IncompleteReadError, or 284-285 *)
              end
          | _ => None
          end
      | _, _, _ => None
      end
  | ConnReset => match loop s with Busy _ _ => Some (end_loop s) | _ => None end
  | LoopCancelled => match loop s with Ended => None | _ => Some (end_loop s) end
  end.

Fixpoint steps (s : session) (es : list event) : option session :=
  match es with
  | [] => Some s
  | e :: es => match step s e with Some s' => steps s' es | None => None end
  end.

(** What the methods make of the response: 172-176, 193-195, 363-394, 403, 411, 425. *)
Inductive result := Returns (v : option V) | RaisesCyclic | RaisesOther.

Definition method_result (c : call) (r : response) : result :=
  match c, r with
  | Connect _ _, RByte b =>
      if list_eq_dec Byte.byte_eq_dec b [command_byte CYCLIC] then RaisesCyclic
      else if list_eq_dec Byte.byte_eq_dec b [command_byte COMPLETE] then Returns None else RaisesOther
  | Disconnect _ _, RByte b | Register _, RByte b =>
      if list_eq_dec Byte.byte_eq_dec b [command_byte COMPLETE] then Returns None else RaisesOther
  | Clear, RByte _ => Returns None                  (* 780-791: only a warning *)
  | _, RByte _ => RaisesOther
  | _, RValue v => Returns (Some v)                 (* of the type that is asked for *)
  end.
End Session.
