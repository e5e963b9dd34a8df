(* Model of a process that takes requests from the graph server and reports the settings its units get:
     processclient.py:188-224   ProcessControlClient._write_payload,
     processclient.py:226-281   _io_loop: one reader for the requests and the answers of the server,
     backendprocess.py:336-425  process_request_handler: a settings field is changed by a broadcast,
     backendprocess.py:496-506  report_settings_update_cb,
     backendprocess.py:740-803  handle_subscriber,
     pubclient.py:475-504       Publisher.broadcast: waits until a buffer is free,
     graphserver.py:651-748     _handle_process: each report is answered by one byte.

   What matters here is who waits for whom.  The reader does not read while a broadcast
   waits for a buffer; a buffer is free again when the unit is done with the message in it;
   and the unit gets a message after its report was answered, by a byte that the reader
   has to read, or after 5 seconds.

   Simplifications: the content of the settings is not modelled (C61 has it), a message is
   known by its unit, its number, and by whether the process's own control publisher sent
   it; every such publisher has [n] buffers and its unit is its only subscriber, in the
   same process, not leaky, so that a broadcast either waits or puts the message in the
   subscriber's queue at once; a request that needs no broadcast (a ping, statistics, a
   change that cannot be applied) is a [Quick] one; a write never waits; there is one connection. *)

From Coq Require Import List Arith Bool.
Import ListNotations.

(** A request of the server: change a settings field of unit [u], or something answered at once; [r] is its number. *)
Inductive request := Ask (u r : nat) | Quick (r : nat).

(** What the server writes to the process: a request, or COMPLETE or ERROR for a report (processclient.py:238-247). *)
Inductive item := Req (q : request) | Ack (b : bool).

(** The reader: at processclient.py:234; in the broadcast of backendprocess.py:408 for a request; at its end. *)
Inductive reader := Reading | Blocked (u r : nat) | Gone.

(** A settings message: for whom, by the process's control publisher or by somebody else, its number. *)
Record message := Msg { unit_ : nat; ctl : bool; no : nat }.

(** What the report of a message came to (processclient.py:211-224, backendprocess.py:785-790). *)
Inductive outcome := Recorded | Refused | Late | Lost.

Record st := mkSt {
  down : list item;                       (* written by the server, not read *)
  eof : bool;                             (* the server has closed the connection *)
  io : reader;                            (* _io_loop *)
  inbox : list message;                   (* in the queues of the subscribers *)
  waiting : list message;                 (* reported; its unit waits on _ack_queue.get(), in this order *)
  working : list message;                 (* given to the unit's tasks, which are not done with it *)
  reports : list message;                 (* written to the server, not answered *)
  ackq : list bool;                       (* _ack_queue *)
  replies : list nat;                     (* the requests replied to *)
  given : list message;                   (* all that was given to the units' tasks, in order *)
  outcomes : list (message * outcome)
}.

Definition init : st := mkSt [] false Reading [] [] [] [] [] [] [] [].

Inductive event :=
| Request (q : request)     (* the server writes a request *)
| Outside (u k : nat)       (* another publisher's settings message reaches unit [u] *)
| Close                     (* the server closes the connection, or dies *)
| Read (bad : bool)         (* the reader reads the next item; [bad]: its reply cannot be written *)
| Unblock (bad : bool)      (* the broadcast gets its buffer *)
| Take (u : nat)            (* the unit's subscriber takes the next message and reports it *)
| Serve                     (* the server answers the next report *)
| Get                       (* the first waiting unit gets the first answer *)
| Expire (u : nat)          (* the unit's 5 seconds are over *)
| Fail (u : nat)            (* writing the unit's report raises *)
| Finish (u : nat).         (* the unit's tasks are done with the message *)

Definition is_of (u : nat) (m : message) : bool := unit_ m =? u.
Definition ctl_of (u : nat) (m : message) : bool := is_of u m && ctl m.

(** The buffers in use (backpressure.py): a message is held until its unit is done with it. *)
Definition used (s : st) (u : nat) : nat :=
  length (filter (ctl_of u) (inbox s)) + length (filter (ctl_of u) (waiting s)) + length (filter (ctl_of u) (working s)).

(** The first message for unit [u] and the rest: each unit has its own queue (subclient.py). *)
Fixpoint pick (u : nat) (l : list message) : option (message * list message) :=
  match l with
  | [] => None
  | m :: r => if is_of u m then Some (m, r) else
      match pick u r with Some (x, r') => Some (x, m :: r') | None => None end
  end.

Definition num (q : request) : nat := match q with Ask _ r => r | Quick r => r end.

(** processclient.py:271-276 — the reply; a write to a dead connection raises ConnectionResetError (280-281), which ends the loop. *)
Definition reply (s : st) (bad : bool) (r : nat) : st :=
  mkSt (down s) (eof s) (if bad then Gone else Reading) (inbox s) (waiting s) (working s) (reports s) (ackq s)
       (if bad then replies s else replies s ++ [r]) (given s) (outcomes s).

(** pubclient.py:503-504 — put_local. *)
Definition publish (s : st) (m : message) : st :=
  mkSt (down s) (eof s) (io s) (inbox s ++ [m]) (waiting s) (working s) (reports s) (ackq s) (replies s) (given s) (outcomes s).

Definition set_down (s : st) (d : list item) : st :=
  mkSt d (eof s) (io s) (inbox s) (waiting s) (working s) (reports s) (ackq s) (replies s) (given s) (outcomes s).
Definition set_io (s : st) (x : reader) : st :=
  mkSt (down s) (eof s) x (inbox s) (waiting s) (working s) (reports s) (ackq s) (replies s) (given s) (outcomes s).

(** processclient.py:233-276 — one turn of _io_loop. *)
Definition read (n : nat) (s : st) (bad : bool) : option st :=
  match down s with
  | [] => if eof s && negb bad then Some (set_io s Gone) else None                        (* 235-236 *)
  | Ack b :: d =>                                                                         (* 238-240 *)
      if bad then None else
      Some (mkSt d (eof s) (io s) (inbox s) (waiting s) (working s) (reports s) (ackq s ++ [b]) (replies s) (given s) (outcomes s))
  | Req (Quick r) :: d => Some (reply (set_down s d) bad r)
  | Req (Ask u r) :: d =>
      if used s u <? n then Some (reply (publish (set_down s d) (Msg u true r)) bad r)    (* backendprocess.py:402-425 *)
      else if bad then None else Some (set_io (set_down s d) (Blocked u r))               (* pubclient.py:490-497 *)
  end.

(** backendprocess.py:785-803 — the message goes to the unit's tasks, whatever the report came to. *)
Definition hand_over (s : st) (m : message) (o : outcome) (w : list message) (a : list bool) : st :=
  mkSt (down s) (eof s) (io s) (inbox s) w (working s ++ [m]) (reports s) a (replies s) (given s ++ [m]) (outcomes s ++ [(m, o)]).

Definition step (verdict : message -> bool) (n : nat) (s : st) (e : event) : option st :=
  match e with
  | Request q => if eof s then None else Some (set_down s (down s ++ [Req q]))
  | Outside u k => Some (publish s (Msg u false k))
  | Close =>
      if eof s then None else
      Some (mkSt (down s) true (io s) (inbox s) (waiting s) (working s) (reports s) (ackq s) (replies s) (given s) (outcomes s))
  | Read bad =>
      match io s with
      | Reading => if bad && negb (eof s) then None else read n s bad
      | _ => None
      end
  | Unblock bad =>
      match io s with
      | Blocked u r =>
          if (used s u <? n) && (negb bad || eof s) then Some (reply (publish s (Msg u true r)) bad r) else None
      | _ => None
      end
  | Take u =>                                                       (* backendprocess.py:772-786, processclient.py:200-205 *)
      if existsb (is_of u) (waiting s ++ working s) then None else
      match pick u (inbox s) with
      | Some (m, r) =>
          Some (mkSt (down s) (eof s) (io s) r (waiting s ++ [m]) (working s)
                     (if eof s then reports s else reports s ++ [m]) (ackq s) (replies s) (given s) (outcomes s))
      | None => None
      end
  | Serve =>                                                        (* graphserver.py:682-686 *)
      if eof s then None else
      match reports s with
      | m :: r => Some (mkSt (down s ++ [Ack (verdict m)]) (eof s) (io s) (inbox s) (waiting s) (working s) r (ackq s) (replies s) (given s) (outcomes s))
      | [] => None
      end
  | Get =>                                                          (* processclient.py:211-224 *)
      match waiting s, ackq s with
      | m :: w, b :: a => Some (hand_over s m (if b then Recorded else Refused) w a)
      | _, _ => None
      end
  | Expire u =>                                                     (* processclient.py:213-216 *)
      match pick u (waiting s) with
      | Some (m, w) => Some (hand_over s m Late w (ackq s))
      | None => None
      end
  | Fail u =>                                                       (* processclient.py:205, once the connection is lost *)
      if negb (eof s) then None else
      match pick u (waiting s) with
      | Some (m, w) => Some (hand_over s m Lost w (ackq s))
      | None => None
      end
  | Finish u =>
      match pick u (working s) with
      | Some (_, w) => Some (mkSt (down s) (eof s) (io s) (inbox s) (waiting s) w (reports s) (ackq s) (replies s) (given s) (outcomes s))
      | None => None
      end
  end.

Fixpoint run (verdict : message -> bool) (n : nat) (s : st) (l : list event) : option st :=
  match l with
  | [] => Some s
  | e :: r => match step verdict n s e with Some s' => run verdict n s' r | None => None end
  end.
