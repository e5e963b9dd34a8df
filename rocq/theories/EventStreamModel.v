(** A subscription to the settings or topology events of the graph server, from end to end: the
    generator that the consumer iterates, the connection, the handler of the server and its logs.
    Models
      graphcontext.py:511-537     subscribe_settings_events, subscribe_topology_events,
      graphcontext.py:557-588     _subscribe_pickled_stream,
      graphserver.py:359-387      the two requests in [api],
      graphserver.py:804-821      _stream_sender,
      graphserver.py:823-900      _handle_event_subscriber and its two callers,
    on top of the logs of EventLogModel and the byte formats and readers of CodecModel and
    StreamModel.

    Simplifications.  [dumps] and [loads] are pickle's; [text] and [int_of] are str(int) and int(text)
    for numbers that are not negative; [uuid] is the text of the identifier that the server chose, and
    [uuid_ok] says which texts UUID() accepts.  A reader that waits for more bytes starts over when
    they come, which makes no difference (StreamProofs.run_app).  The consumer takes what the
    generator yields and asks again: how long it takes is how late [ClientReads] happens.  Other
    connections and the rest of the server are the operations [Log] on the two logs.  The writer is
    never held up by [drain]: how much the transport buffers is how much is under way. *)
From Coq Require Import List NArith Arith Bool.
From Coq Require Import Strings.Byte.
From Verif Require Import Dict CodecModel StreamModel EventLogModel.
Import ListNotations.

(** The two logs. *)
Inductive which := Settings | Topology.

#[export] Instance dec_which : Dec which.
Proof. intros a b. decide equality. Defined.

(** The handler at the server: [api] reads the request; the answer is written, the subscriber is not
    yet registered; it is (the flag: the sender task is alive); the connection has been given up. *)
Inductive server := Reading | Answered (k : which) (after : nat) | Serving (k : which) (sender : bool) | Gone.

(** How the iteration ended: without an error; with an exception; the consumer left. *)
Inductive ending := Returned | Raised | Left.

(** The generator: it waits for the answer; it waits for an event; it is over. *)
Inductive client := Asking | Listening | Over (h : ending).

Section Stream.
Variables (A V : Type).                               (* contents of events; Python objects *)
Variable is_event : which -> V -> bool.               (* isinstance(value, expected_type) *)
Variable dumps : which -> event A -> bytes.
Variable loads : bytes -> option V.
Variable text : nat -> pystr.
Variable int_of : pystr -> option nat.
Variable uuid : pystr.
Variable uuid_ok : pystr -> bool.
Variable me : nat.                                    (* subscriber_id *)

Record world := World {
  logs : which -> log A;
  srv : server;
  up : bytes;                                         (* under way to the server *)
  up_end : bool;                                      (* nothing will follow *)
  sbuf : bytes;                                       (* arrived at the server, not read *)
  down : bytes;                                       (* under way to the client *)
  down_end : bool;
  cbuf : bytes;                                       (* arrived at the client, not read *)
  cli : client;
  closed : bool;                                      (* the client has closed its end *)
  yielded : list V }.

Definition upd_log (f : which -> log A) (k : which) (l : log A) : which -> log A :=
  fun j => if dec j k then l else f j.

(** graphcontext.py:517, 532 *)
Definition subscribe_command (k : which) : command :=
  match k with Settings => SESSION_SETTINGS_SUBSCRIBE | Topology => SESSION_TOPOLOGY_SUBSCRIBE end.

(** graphcontext.py:518, 533, 567-568: what the client writes *)
Definition request (k : which) (after : nat) : option bytes :=
  match encode_str (text after) with
  | Some b => Some (command_byte (subscribe_command k) :: b)
  | None => None
  end.

(** graphserver.py:359-361, 374-376: reading the request.  [Raise]: any other command, or a number
    that is none. *)
Definition read_subscribe : reader (which * nat) :=
  ReadN 1 (fun req =>
    match command_of_bytes req with
    | Some SESSION_SETTINGS_SUBSCRIBE =>
        bind read_str (fun s => match int_of s with Some n => Ret (Settings, n) | None => Raise end)
    | Some SESSION_TOPOLOGY_SUBSCRIBE =>
        bind read_str (fun s => match int_of s with Some n => Ret (Topology, n) | None => Raise end)
    | _ => Raise
    end).

(** graphserver.py:362-363, 377-378 *)
Definition answer : option bytes :=
  match encode_str uuid with
  | Some b => Some (b ++ [command_byte COMPLETE])
  | None => None
  end.

(** graphserver.py:812-815: an event on the connection *)
Definition write_event (k : which) (e : event A) : option bytes :=
  match uint64_to_bytes (N.of_nat (length (dumps k e))) with
  | Some n => Some (n ++ dumps k e)
  | None => None
  end.

(** graphcontext.py:578-581; [None]: pickle.loads raised, or it is no event. *)
Definition read_event (k : which) : reader (option V) :=
  bind read_int (fun n => ReadN (N.to_nat n) (fun p =>
    match loads p with
    | Some v => if is_event k v then Ret (Some v) else Ret None
    | None => Ret None
    end)).

Inductive happening :=
| Log (k : which) (op : log_op A)     (* the rest of the server *)
| ArriveUp (n : nat)
| ArriveDown (n : nat)
| ServerReads                         (* 359-363 *)
| ServerRegisters                     (* 835-839 *)
| ServerSends                         (* 811-816 *)
| ServerNotices                       (* 847-860: the connection has ended *)
| ClientReads                         (* the generator runs as far as it can get *)
| ClientLeaves                        (* break, aclose() or a cancellation *)
| Cut (n : nat)                       (* the connection ends; n bytes under way still arrive *)
| Reset.                              (* ConnectionResetError at the client *)

(** Operations that are not about this subscriber. *)
Definition others (op : log_op A) : bool :=
  match op with
  | Append _ => true
  | Subscribe i _ | Unsubscribe i | Send i => negb (i =? me)
  end.

Definition set_logs (w : world) (l : which -> log A) : world :=
  World l (srv w) (up w) (up_end w) (sbuf w) (down w) (down_end w) (cbuf w) (cli w) (closed w) (yielded w).
Definition set_srv (w : world) (s : server) : world :=
  World (logs w) s (up w) (up_end w) (sbuf w) (down w) (down_end w) (cbuf w) (cli w) (closed w) (yielded w).
Definition set_sbuf (w : world) (b : bytes) : world :=
  World (logs w) (srv w) (up w) (up_end w) b (down w) (down_end w) (cbuf w) (cli w) (closed w) (yielded w).
Definition set_cbuf (w : world) (b : bytes) : world :=
  World (logs w) (srv w) (up w) (up_end w) (sbuf w) (down w) (down_end w) b (cli w) (closed w) (yielded w).
Definition set_cli (w : world) (c : client) : world :=
  World (logs w) (srv w) (up w) (up_end w) (sbuf w) (down w) (down_end w) (cbuf w) c (closed w) (yielded w).

(** What the server writes: lost, once the connection has ended. *)
Definition write_down (w : world) (b : bytes) : world :=
  World (logs w) (srv w) (up w) (up_end w) (sbuf w) (if down_end w then down w else down w ++ b)
        (down_end w) (cbuf w) (cli w) (closed w) (yielded w).

Definition yield (w : world) (v : V) : world :=
  World (logs w) (srv w) (up w) (up_end w) (sbuf w) (down w) (down_end w) (cbuf w) (cli w) (closed w)
        (yielded w ++ [v]).

(** close_stream_writer at the client *)
Definition close (w : world) : world :=
  World (logs w) (srv w) (up w) true (sbuf w) (down w) (down_end w) (cbuf w) (cli w) true (yielded w).

(** close_stream_writer at the server *)
Definition hang_up (w : world) : world :=
  World (logs w) (srv w) (up w) (up_end w) (sbuf w) (down w) true (cbuf w) (cli w) (closed w) (yielded w).

(** The client has seen the end of the connection. *)
Definition at_end (w : world) : bool :=
  down_end w && match down w with [] => true | _ => false end.

(** 571-575: the answer.  An identifier that does not come, or is none, is an exception that leaves
    the connection open; a missing or wrong byte after it closes the connection first. *)
Definition read_answer (w : world) : option world :=
  match run read_str (cbuf w) with
  | Failed => Some (set_cli w (Over Raised))
  | Blocked _ _ => if at_end w then Some (set_cli w (Over Raised)) else None
  | Done s rest =>
      if negb (uuid_ok s) then Some (set_cli w (Over Raised))
      else match rest with
           | [] => if at_end w then Some (close (set_cli w (Over Raised))) else None
           | b :: rest' =>
               if Byte.byte_eq_dec b (command_byte COMPLETE)
               then Some (set_cli (set_cbuf w rest') Listening)
               else Some (close (set_cli w (Over Raised)))
           end
  end.

(** 577-588: one event, or the end. *)
Definition next_event (k : which) (w : world) : option world :=
  match run (read_event k) (cbuf w) with
  | Failed => Some (close (set_cli w (Over Raised)))
  | Blocked _ _ => if at_end w then Some (close (set_cli w (Over Returned))) else None
  | Done (Some v) rest => Some (yield (set_cbuf w rest) v)
  | Done None _ => Some (close (set_cli w (Over Raised)))
  end.

(** [asked]: which of the two generators it is.  [None]: this cannot happen now. *)
Definition step (asked : which) (w : world) (h : happening) : option world :=
  match h with
  | Log k op =>
      if others op then Some (set_logs w (upd_log (logs w) k (log_step (logs w k) op))) else None
  | ArriveUp n =>
      if (0 <? n) && (n <=? length (up w)) then
        Some (World (logs w) (srv w) (skipn n (up w)) (up_end w) (sbuf w ++ firstn n (up w))
                    (down w) (down_end w) (cbuf w) (cli w) (closed w) (yielded w))
      else None
  | ArriveDown n =>
      if (0 <? n) && (n <=? length (down w)) then
        Some (World (logs w) (srv w) (up w) (up_end w) (sbuf w) (skipn n (down w)) (down_end w)
                    (cbuf w ++ firstn n (down w)) (cli w) (closed w) (yielded w))
      else None
  | ServerReads =>
      match srv w with
      | Reading =>
          match run read_subscribe (sbuf w) with
          | Done (k, n) rest =>
              match answer with
              | Some b => Some (set_srv (write_down (set_sbuf w rest) b) (Answered k n))
              | None => Some (set_srv w Gone)
              end
          | Failed => Some (set_srv w Gone)
          | Blocked _ _ =>
              (* IncompleteReadError is not handled: the connection is not closed either *)
              if up_end w && match up w with [] => true | _ => false end
              then Some (set_srv w Gone) else None
          end
      | _ => None
      end
  | ServerRegisters =>
      match srv w with
      | Answered k n =>
          Some (set_srv (set_logs w (upd_log (logs w) k (subscribe me n (logs w k)))) (Serving k true))
      | _ => None
      end
  | ServerSends =>
      match srv w with
      | Serving k true =>
          match get me (l_subs (logs w k)) with
          | Some (mkSub (e :: _) _) =>
              let w' := set_logs w (upd_log (logs w) k (send me (logs w k))) in
              match write_event k e with
              | Some b => Some (write_down w' b)
              | None => Some (set_srv w' (Serving k false))
              end
          | _ => None
          end
      | _ => None
      end
  | ServerNotices =>
      match srv w, up w with
      | Serving k _, [] =>
          if up_end w
          then Some (hang_up (set_srv (set_logs w (upd_log (logs w) k (unsubscribe me (logs w k)))) Gone))
          else None
      | _, _ => None
      end
  | ClientReads =>
      match cli w with
      | Asking => read_answer w
      | Listening => next_event asked w
      | Over _ => None
      end
  | ClientLeaves =>
      (* 569-576 are not in the try block *)
      match cli w with
      | Asking => Some (set_cli w (Over Left))
      | Listening => Some (close (set_cli w (Over Left)))
      | Over _ => None
      end
  | Cut n =>
      if down_end w then None
      else Some (World (logs w) (srv w) [] true (sbuf w) (firstn n (down w)) true (cbuf w) (cli w)
                       (closed w) (yielded w))
  | Reset =>
      (* the reader raises what the transport reported, whatever is still in its buffer *)
      let w' := World (logs w) (srv w) [] true (sbuf w) [] true [] (cli w) (closed w) (yielded w) in
      match cli w with
      | Asking => Some (set_cli w' (Over Raised))
      | Listening => Some (close (set_cli w' (Over Raised)))
      | Over _ => None
      end
  end.

Fixpoint steps (asked : which) (w : world) (hs : list happening) : option world :=
  match hs with
  | [] => Some w
  | h :: r => match step asked w h with Some w' => steps asked w' r | None => None end
  end.

(** 566-569: the connection is open, the request is on its way. *)
Definition start (l : which -> log A) (req : bytes) : world :=
  World l Reading req false [] [] false [] Asking false [].

End Stream.
