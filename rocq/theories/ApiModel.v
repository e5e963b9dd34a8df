(** Calls of a graph service and the graph server that serves them, one connection per call, from the
    caller over the bytes to the graph and back.  Models
      graphserver.py:1833-1842    open_connection,
      graphserver.py:1844-1880    connect, disconnect, sync, pause, resume,
      graphserver.py:1888-1900    dag,
      graphserver.py:243-261, 424-426, 462-527   [api] for the commands these send: the greeting, the
                                  command byte, the command lock, the arguments, the execution, the answer,
    on top of the byte formats and readers of CodecModel and StreamModel.

    Simplifications.  The graph is any object with a connect that may refuse and a disconnect (the
    corollary in ApiProps uses the graph of DagModel).  [dumps] and [loads] are pickle's.  The command
    lock is first come, first served (asyncio.Lock): [line] is its holder and those who wait.  The
    other things the server does under the lock or between two commands (sessions, new publishers and
    subscribers) are the event [Elsewhere], in which the lock is taken and given back at once.  The
    routing update of subscribers after a change (at most a time-out each) is the time between the
    answer and the end of the task.  Publishers that disconnect during sync() count as having answered.  The
    server's buffers never fill up: drain() returns.  drain() on a connection that is lost may raise: that is
    [GiveUp].  The sleep in dag() is not modelled. *)
From Coq Require Import List NArith Arith Bool.
From Coq Require Import Strings.Byte.
From Verif Require Import CodecModel StreamModel.
Import ListNotations.

(** The methods of the graph service. *)
Inductive call :=
| Connect (f t : pystr)      (* 1844 *)
| Disconnect (f t : pystr)   (* 1856 *)
| Sync                       (* 1865 *)
| Pause                      (* 1872 *)
| Resume                     (* 1877 *)
| Dag.                       (* 1888 *)

(** 1846, 1858, 1867, 1874, 1879, 1890 *)
Definition command_of (c : call) : command :=
  match c with
  | Connect _ _ => CONNECT | Disconnect _ _ => DISCONNECT
  | Sync => SYNC | Pause => PAUSE | Resume => RESUME | Dag => DAG
  end.

Definition args_of (c : call) : list pystr :=
  match c with Connect f t | Disconnect f t => [f; t] | _ => [] end.

(** 1847-1848, 1859-1860: each topic is written when it is encoded; [false]: one could not be. *)
Fixpoint write_args (l : list pystr) : bytes * bool :=
  match l with
  | [] => ([], true)
  | a :: r => match encode_str a with
              | None => ([], false)
              | Some b => let (bs, ok) := write_args r in (b ++ bs, ok)
              end
  end.

Definition write_request (c : call) : bytes * bool :=
  let (a, ok) := write_args (args_of c) in (command_byte (command_of c) :: a, ok).

(** 462-464, 491, 502, 506, 510: the rest of a request, under the lock *)
Definition read_args (op : command) : reader call :=
  match op with
  | CONNECT => bind read_str (fun f => bind read_str (fun t => Ret (Connect f t)))
  | DISCONNECT => bind read_str (fun f => bind read_str (fun t => Ret (Disconnect f t)))
  | SYNC => Ret Sync
  | PAUSE => Ret Pause
  | RESUME => Ret Resume
  | DAG => Ret Dag
  | _ => Raise
  end.

(** The commands of this model (the others of [api] are elsewhere). *)
Definition served (op : command) : bool :=
  match op with CONNECT | DISCONNECT | SYNC | PAUSE | RESUME | DAG => true | _ => false end.

Section Api.
Variable G : Type.                                    (* graphs *)
Variable connect_g : pystr -> pystr -> G -> G * bool. (* false: CyclicException *)
Variable disconnect_g : pystr -> pystr -> G -> G.
Variable dumps : G -> bytes.
Variable loads : bytes -> option G.
Variable version : pystr.

Inductive answer := ADone | ACyclic | ADag (g : G) | ANone.

(** How a call ends: it returns (dag() returns a graph), it raises CyclicException, it raises
    something else. *)
Inductive result := Returned (v : option G) | RaisedCyclic | RaisedOther.

Inductive client := Opening | Waiting | Over (r : result).

(** The [api] task of a connection: not started; waits for the command byte; waits in the line of the
    lock, and when it is its turn for its arguments; waits for publishers; has answered; is over, and
    the connection is closed; is over because of an exception, and the connection is not closed. *)
Inductive task := Fresh | Asked | InLine (op : command) | Syncing (todo : list nat) | Answered | Closed | Broken.

Record conn := Conn {
  what : call;
  cli : client;
  up : bytes; up_end : bool; sbuf : bytes;            (* to the server: under way, nothing follows, arrived *)
  srv : task;
  down : bytes; down_end : bool; cbuf : bytes }.

(** What happened, in order. *)
Inductive mark :=
| Called (i : nat) (c : call)
| Told (i p : nat) (op : command)         (* the server writes op to publisher p *)
| Confirmed (i p : nat)                   (* publisher p has answered SYNC *)
| Took (i : nat) (c : call) (a : answer)  (* the command takes effect *)
| NotSent (i : nat) (g : G)               (* the graph is too big to be sent to the caller of dag() *)
| Changed (g : G) (pubs : list nat)       (* something else changes the graph or the publishers *)
| Lost (i : nat)                          (* the connection of call i is lost *)
| GaveUp (i : nat)                        (* the caller is cancelled, or its time-out expires *)
| Dropped (i : nat)                       (* a connection nobody uses is closed *)
| CameBack (i : nat) (r : result).

Record world := World {
  graph : G;
  pubs : list nat;
  line : list nat;
  count : nat;
  conns : nat -> conn;
  history : list mark }.

Definition upd (f : nat -> conn) (i : nat) (c : conn) : nat -> conn := fun j => if j =? i then c else f j.

Definition set_conn (w : world) (i : nat) (c : conn) : world :=
  World (graph w) (pubs w) (line w) (count w) (upd (conns w) i c) (history w).
Definition note (w : world) (l : list mark) : world :=
  World (graph w) (pubs w) (line w) (count w) (conns w) (history w ++ l).
Definition set_line (w : world) (l : list nat) : world :=
  World (graph w) (pubs w) l (count w) (conns w) (history w).
Definition set_graph (w : world) (g : G) : world :=
  World g (pubs w) (line w) (count w) (conns w) (history w).

Definition set_cli (c : conn) (x : client) : conn :=
  Conn (what c) x (up c) (up_end c) (sbuf c) (srv c) (down c) (down_end c) (cbuf c).
Definition set_srv (c : conn) (x : task) : conn :=
  Conn (what c) (cli c) (up c) (up_end c) (sbuf c) x (down c) (down_end c) (cbuf c).
Definition set_sbuf (c : conn) (b : bytes) : conn :=
  Conn (what c) (cli c) (up c) (up_end c) b (srv c) (down c) (down_end c) (cbuf c).
Definition set_cbuf (c : conn) (b : bytes) : conn :=
  Conn (what c) (cli c) (up c) (up_end c) (sbuf c) (srv c) (down c) (down_end c) b.
(** What is written to a connection that has ended is lost. *)
Definition write_up (c : conn) (b : bytes) : conn :=
  Conn (what c) (cli c) (if up_end c then up c else up c ++ b) (up_end c) (sbuf c) (srv c) (down c) (down_end c) (cbuf c).
Definition write_down (c : conn) (b : bytes) : conn :=
  Conn (what c) (cli c) (up c) (up_end c) (sbuf c) (srv c) (if down_end c then down c else down c ++ b) (down_end c) (cbuf c).
(** close_stream_writer at the client, and at the server *)
Definition close (c : conn) : conn :=
  Conn (what c) (cli c) (up c) true (sbuf c) (srv c) (down c) (down_end c) (cbuf c).
Definition hang_up (c : conn) : conn :=
  Conn (what c) (cli c) (up c) (up_end c) (sbuf c) (srv c) (down c) true (cbuf c).

Definition server_at_end (c : conn) : bool := up_end c && match up c with [] => true | _ => false end.
Definition client_at_end (c : conn) : bool := down_end c && match down c with [] => true | _ => false end.

(** 467-478 (connect, disconnect), 510-514 (dag), 502-508 (pause, resume), 491-500 (sync): the effect
    and the answer. *)
Definition apply (c : call) (g : G) : G * answer :=
  match c with
  | Connect f t => let (g', ok) := connect_g f t g in (g', if ok then ADone else ACyclic)
  | Disconnect f t => (disconnect_g f t g, ADone)
  | Sync => (g, ADone)
  | Pause | Resume => (g, ANone)
  | Dag => (g, ADag g)
  end.

(** 476, 478, 499, 511-514.  [None]: the pickle is too long for its size to be written. *)
Definition write_answer (a : answer) : option bytes :=
  match a with
  | ADone => Some [command_byte COMPLETE]
  | ACyclic => Some [command_byte CYCLIC]
  | ADag g => match uint64_to_bytes (N.of_nat (length (dumps g))) with
              | Some n => Some (command_byte DAG :: n ++ dumps g ++ [command_byte COMPLETE])
              | None => None
              end
  | ANone => Some []
  end.

(** What PAUSE and RESUME write to the publishers, 502-508. *)
Definition tells (c : call) (i : nat) (l : list nat) : list mark :=
  match c with
  | Pause => map (fun p => Told i p PAUSE) l
  | Resume => map (fun p => Told i p RESUME) l
  | _ => []
  end.

(** The command takes effect and is answered. *)
Definition take (i : nat) (c : call) (w : world) : world :=
  let (g, a) := apply c (graph w) in
  match write_answer a with
  | Some b =>
      note (set_conn (set_graph w g) i (set_srv (write_down (conns w i) b) Answered)) (tells c i (pubs w) ++ [Took i c a])
  | None => (* 513: OverflowError, after DAG has been written *)
      note (set_line (set_conn w i (set_srv (write_down (conns w i) [command_byte DAG]) Broken)) (tl (line w)))
           [NotSent i (graph w)]
  end.

(** 492-500: the next publisher of sync(), or the answer *)
Definition sync_next (i : nat) (todo : list nat) (w : world) : world :=
  match todo with
  | [] => take i Sync w
  | p :: _ => note (set_conn w i (set_srv (conns w i) (Syncing todo))) [Told i p SYNC]
  end.

Definition give_back (i : nat) (r : result) (c : conn) (w : world) : world :=
  note (set_conn w i (set_cli c (Over r))) [CameBack i r].

(** 1893-1895 *)
Definition read_dag : reader bytes :=
  ReadN 1 (fun _ => bind read_int (fun n => ReadN (N.to_nat n) (fun b => Ret b))).

(** 1833-1900, the caller's side: as far as it can get.  [None]: it waits. *)
Definition client_step (i : nat) (w : world) : option world :=
  let c := conns w i in
  match cli c with
  | Opening =>
      match run read_str (cbuf c) with
      | Done _ rest =>
          let (b, ok) := write_request (what c) in
          let c' := write_up (set_cbuf c rest) b in
          if ok then
            match what c with
            | Pause | Resume => Some (give_back i (Returned None) (close c') w)
            | _ => Some (set_conn w i (set_cli c' Waiting))
            end
          else Some (give_back i RaisedOther c' w)               (* UnicodeEncodeError: not closed *)
      | Failed => Some (give_back i RaisedOther c w)
      | Blocked _ _ => if client_at_end c then Some (give_back i RaisedOther c w) else None
      end
  | Waiting =>
      match what c with
      | Dag =>
          match run read_dag (cbuf c) with
          | Done p rest =>
              match loads p with
              | None => Some (give_back i RaisedOther c w)
              | Some g =>
                  match rest with
                  | [] => if client_at_end c then Some (give_back i (Returned (Some g)) (close c) w) else None
                  | _ :: rest' => Some (give_back i (Returned (Some g)) (close (set_cbuf c rest')) w)
                  end
              end
          | Failed => Some (give_back i RaisedOther c w)
          | Blocked _ _ => if client_at_end c then Some (give_back i RaisedOther c w) else None
          end
      | _ =>
          match cbuf c with
          | [] => if client_at_end c then Some (give_back i (Returned None) (close c) w) else None   (* b"" *)
          | b :: rest =>
              let c' := close (set_cbuf c rest) in
              match what c with
              | Connect _ _ =>
                  if Byte.byte_eq_dec b (command_byte CYCLIC) then Some (give_back i RaisedCyclic c' w)
                  else Some (give_back i (Returned None) c' w)
              | _ => Some (give_back i (Returned None) c' w)
              end
          end
      end
  | Over _ => None
  end.

(** 243-527, the [api] task of connection i: as far as it can get.  [None]: it waits. *)
Definition server_step (i : nat) (w : world) : option world :=
  let c := conns w i in
  match srv c with
  | Fresh =>                                                      (* 251-252 *)
      match encode_str version with
      | Some b => Some (set_conn w i (set_srv (write_down c b) Asked))
      | None => Some (set_conn w i (set_srv c Broken))
      end
  | Asked =>                                                      (* 254, 256-261, 424-426 *)
      match sbuf c with
      | [] => if server_at_end c then Some (set_conn w i (hang_up (set_srv c Closed))) else None
      | b :: rest =>
          match command_of_bytes [b] with
          | Some op =>
              if served op
              then Some (set_line (set_conn w i (set_srv (set_sbuf c rest) (InLine op))) (line w ++ [i]))
              else None
          | None => None
          end
      end
  | InLine op =>
      match line w with
      | j :: others =>
          if i =? j then
            match run (read_args op) (sbuf c) with
            | Done Sync rest => Some (sync_next i (pubs w) (set_conn w i (set_sbuf c rest)))
            | Done q rest => Some (take i q (set_conn w i (set_sbuf c rest)))
            | Failed => Some (set_line (set_conn w i (set_srv c Broken)) others)
            | Blocked _ _ =>                                      (* IncompleteReadError is not handled *)
                if server_at_end c then Some (set_line (set_conn w i (set_srv c Broken)) others) else None
            end
          else None
      | [] => None
      end
  | Syncing _ => None
  | Answered => (* 480-489: the routing updates are over; the lock is given back, the connection closed, 527 *)
      Some (set_line (set_conn w i (hang_up (set_srv c Closed))) (tl (line w)))
  | Closed | Broken => None
  end.

Inductive event :=
| Call (c : call)               (* somebody calls a method; it is given the next number *)
| ArriveUp (i n : nat)
| ArriveDown (i n : nat)
| Server (i : nat)
| Confirm (i : nat)             (* the publisher that the sync() of call i waits for answers *)
| Client (i : nat)
| GiveUp (i : nat)              (* the caller is cancelled, or its time-out expires *)
| Collect (i : nat)             (* a connection that nobody uses is closed by the garbage collector *)
| Lose (i n : nat)              (* the connection is lost; n bytes under way still reach the client *)
| Elsewhere (g : G) (l : list nat).

Definition fresh (c : call) : conn := Conn c Opening [] false [] Fresh [] false [].

(** [None]: this cannot happen now. *)
Definition step (w : world) (e : event) : option world :=
  match e with
  | Call c =>
      Some (World (graph w) (pubs w) (line w) (S (count w)) (upd (conns w) (count w) (fresh c))
                  (history w ++ [Called (count w) c]))
  | ArriveUp i n =>
      let c := conns w i in
      if (i <? count w) && (0 <? n) && (n <=? length (up c)) then
        Some (set_conn w i (Conn (what c) (cli c) (skipn n (up c)) (up_end c) (sbuf c ++ firstn n (up c)) (srv c)
                                 (down c) (down_end c) (cbuf c)))
      else None
  | ArriveDown i n =>
      let c := conns w i in
      if (i <? count w) && (0 <? n) && (n <=? length (down c)) then
        Some (set_conn w i (Conn (what c) (cli c) (up c) (up_end c) (sbuf c) (srv c)
                                 (skipn n (down c)) (down_end c) (cbuf c ++ firstn n (down c))))
      else None
  | Server i => if i <? count w then server_step i w else None
  | Confirm i =>
      if i <? count w then
        match srv (conns w i) with
        | Syncing (p :: todo) => Some (sync_next i todo (note w [Confirmed i p]))
        | _ => None
        end
      else None
  | Client i => if i <? count w then client_step i w else None
  | GiveUp i =>
      if i <? count w then
        match cli (conns w i) with
        | Over _ => None
        | _ => Some (give_back i RaisedOther (conns w i) (note w [GaveUp i]))   (* no method closes its connection then *)
        end
      else None
  | Collect i =>
      if i <? count w then
        match cli (conns w i) with Over _ => Some (note (set_conn w i (close (conns w i))) [Dropped i]) | _ => None end
      else None
  | Lose i n =>
      let c := conns w i in
      if (i <? count w) && negb (down_end c) then
        Some (note (set_conn w i (Conn (what c) (cli c) [] true (sbuf c) (srv c) (firstn n (down c)) true (cbuf c))) [Lost i])
      else None
  | Elsewhere g l => match line w with [] => Some (note (World g l [] (count w) (conns w) (history w)) [Changed g l]) | _ => None end
  end.

Fixpoint steps (w : world) (es : list event) : option world :=
  match es with
  | [] => Some w
  | e :: r => match step w e with Some w' => steps w' r | None => None end
  end.

Definition start (g : G) (l : list nat) : world := World g l [] 0 (fun _ => fresh Sync) [].
End Api.
