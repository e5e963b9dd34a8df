(* Model of how programs find or start the graph server, and where servers listen:
     /repo/src/ezmsg/core/netprotocol.py   19-33 (constants), 351-405 (create_socket)
     /repo/src/ezmsg/core/graphserver.py   170-187 (GraphServer.start), 189-198 (stop, run),
                                           217-241 (_amain), 1784-1841 (GraphService: default_address,
                                           address, create_server, ensure, open_connection)
     /repo/src/ezmsg/core/graphcontext.py  120-125 (graph_address), 218-221 (_ensure_servers)
     /repo/src/ezmsg/core/commands/start.py 20-43, serve.py 18-25
     /repo/src/ezmsg/core/pubclient.py     189-193 (the publisher's own server)

   Several programs run on one machine.  Their system calls (connect, bind, listen) interleave in any
   order: every step of a call is one event.  The machine is the table of its TCP sockets that are bound.

   Simplifications: an address is a host and a port; two addresses collide when both are equal after name
   resolution (the wildcard address is not treated specially); ports are natural numbers; the
   strings of the environment are taken as already parsed; connection time-outs and time itself are
   left out (asyncio.sleep between two attempts is one step). *)

From Coq Require Import String List Arith NArith Bool.
From Verif Require Import Dict.
Import ListNotations.
Open Scope bool_scope.
Open Scope N_scope.

Notation addr := (string * N)%type.

(** ** Constants: netprotocol.py 23-33 *)

Definition DEFAULT_HOST : string := "127.0.0.1".
Definition GRAPHSERVER_PORT_DEFAULT : N := 25978.
Definition RESERVED_PORTS : list N := [GRAPHSERVER_PORT_DEFAULT].
Definition MAX_PORT : N := 65535.

(** ** The machine *)

(** What answers at a socket: a graph server, the server of a publisher, another program (or what is left
    of the connections of a server that has gone). *)
Inductive kind := Graph | Channel | Foreign.

Record sock := mkSock {
  s_addr : addr;         (* getsockname() *)
  s_reuse : bool;        (* SO_REUSEADDR *)
  s_listens : bool;      (* listen() was called *)
  s_kind : kind;
  s_owner : option nat   (* the call that made it *)
}.

(** ** Calls *)

(** The environment variables read: EZMSG_GRAPHSERVER_ADDR, EZMSG_SERVER_PORT_START,
    EZMSG_PUBLISHER_PORT_START (netprotocol.py 25-33), with their default values when unset. *)
Record environ := mkEnv { env_addr : option addr; env_server_start : N; env_pub_start : N }.

(** The calls under way: GraphService(address).ensure(auto_start), GraphService(address).create_server()
    (which the serve command makes), the start command, and the part of Publisher.create that
    makes the publisher's server. *)
Inductive call :=
| Ensure (address : option addr) (auto_start : option bool) (env : environ)
| Create (address : option addr) (env : environ)
| StartCommand (address : addr)
| Publish (host : option string) (port : option N) (env : environ).

Inductive outcome :=
| Found                       (* ensure returns None / the start command reports success *)
| Started (a : addr)          (* a server is returned; a is its address *)
| Refused                     (* ConnectionRefusedError *)
| Unavailable                 (* OSError from bind or listen *)
| NoFreePorts                 (* IOError: "no free ports" *)
| HungUp.                     (* the other side closed before the greeting *)

Inductive phase :=
| Forking                         (* the start command, before Popen *)
| Connecting                      (* about to connect to the service's address *)
| Greeting (s : nat)              (* connected to socket s; waiting for the version *)
| Binding (a : addr)              (* about to bind the given address *)
| Searching (h : string) (p : N)  (* about to try port p *)
| Starting (s : nat)              (* socket s is bound; about to listen *)
| Stuck (s : nat)                 (* the server thread has died; start() waits for it to be up *)
| Done (o : outcome)
| Gone.                           (* the process has ended before the call did *)

Record agent := mkAgent { a_call : call; a_phase : phase }.

Record world := mkWorld { socks : list (nat * sock); agents : list (nat * agent); next : nat }.

(** An empty machine. *)
Definition init : world := mkWorld [] [] 0.

Inductive event :=
| Call (i : nat) (c : call)            (* call i begins *)
| Fork (i j : nat)                     (* the start command i starts the serve command as call j *)
| Go (i : nat) (port : N)              (* the next system call of i; the port the system picks if it is asked to *)
| HangUp (i : nat) (reset : bool)      (* the connection of i breaks before the greeting *)
| Stop (i : nat) (n : nat)             (* server i is stopped or its process ends; n connections linger *)
| Other (a : addr) (reuse listens : bool)  (* another program binds (and listens) *)
| Close (s : nat).                     (* another program's socket, or a lingering connection, goes *)

Section Machine.
(** Name resolution, and the addresses the system lets nobody bind (not a local host, privileged port). *)
Variable resolve : string -> string.
Variable refuses : addr -> bool.

(** Where a socket ends up when (host, port) is bound: the host is resolved, port 0 stands for any. *)
Definition place (a : addr) (port : N) : addr := (resolve (fst a), if snd a =? 0 then port else snd a).

(** bind(2): a socket bound to the same address is in the way, unless both have SO_REUSEADDR and the other does
    not listen. *)
Definition in_the_way (a : addr) (reuse : bool) (s : sock) : bool :=
  eqd (s_addr s) a && negb (reuse && s_reuse s && negb (s_listens s)).

Definition bindable (l : list (nat * sock)) (a : addr) (reuse : bool) : bool :=
  negb (refuses a) && negb (snd a =? 0) && (snd a <=? MAX_PORT) && forallb (fun p => negb (in_the_way a reuse (snd p))) l.

(** listen(2): fails when another socket listens at the address. *)
Definition listening_at (a : addr) (s : sock) : bool := s_listens s && eqd (s_addr s) a.

(** The socket a connection to [a] reaches. *)
Definition listener (l : list (nat * sock)) (a : addr) : option nat :=
  match find (fun p => listening_at a (snd p)) l with Some p => Some (fst p) | None => None end.

(** ** GraphService *)

(** GraphService.default_address: graphserver.py 1793-1796. *)
Definition default_address (env : environ) : addr :=
  match env_addr env with Some a => a | None => (DEFAULT_HOST, GRAPHSERVER_PORT_DEFAULT) end.

(** GraphService.address: 1798-1800. *)
Definition address (svc : option addr) (env : environ) : addr :=
  match svc with Some a => a | None => default_address env end.

(** ensure_server in GraphService.ensure: 1815-1821. *)
Definition ensure_server (svc : option addr) (auto_start : option bool) (env : environ) : bool :=
  match auto_start with
  | Some b => b
  | None => match svc with
            | Some _ => false
            | None => match env_addr env with Some _ => false | None => true end
            end
  end.

(** GraphServer.start up to create_socket: 171-177. *)
Definition begin_start (svc : option addr) (env : environ) : phase :=
  match svc with Some a => Binding a | None => Searching DEFAULT_HOST (env_server_start env) end.

(** Publisher.create: create_socket(host, port, start_port), pubclient.py 189-192, netprotocol.py 381-392. *)
Definition begin_publish (host : option string) (port : option N) (env : environ) : phase :=
  let h := match host with Some h => h | None => DEFAULT_HOST end in
  match port with Some p => Binding (h, p) | None => Searching h (env_pub_start env) end.

Definition first_phase (c : call) : phase :=
  match c with
  | Ensure _ _ _ => Connecting
  | Create a env => begin_start a env
  | StartCommand _ => Forking
  | Publish h p env => begin_publish h p env
  end.

(** Where open_connection goes: graphserver.py 1833-1836. *)
Definition target (c : call) : addr :=
  match c with
  | Ensure a _ env => address a env
  | Create a env => address a env
  | StartCommand a => a
  | Publish _ _ env => default_address env
  end.

(** No answer: ensure's except clause, 1826-1829; the start command tries again, start.py 35-41. *)
Definition no_answer (c : call) : phase :=
  match c with
  | Ensure a auto env => if ensure_server a auto env then begin_start a env else Done Refused
  | StartCommand _ => Connecting
  | _ => Done Refused
  end.

(** The connection breaks before the greeting is read: an OSError (reset) is caught by ensure, the end of the
    stream (IncompleteReadError, no OSError) is not; the start command catches neither. *)
Definition hung_up (c : call) (reset : bool) : phase :=
  match c with Ensure _ _ _ => if reset then no_answer c else Done HungUp | _ => Done HungUp end.

Definition kind_of (c : call) : kind := match c with Publish _ _ _ => Channel | _ => Graph end.

Definition set_phase (w : world) (i : nat) (c : call) (p : phase) : world :=
  mkWorld (socks w) (put i (mkAgent c p) (agents w)) (next w).

(** socket(); setsockopt(); bind(): the new socket, if the system agrees. *)
Definition bind (w : world) (i : nat) (c : call) (a : addr) (reuse : bool) : option world :=
  if bindable (socks w) a reuse
  then Some (mkWorld (socks w ++ [(next w, mkSock a reuse false (kind_of c) (Some i))])
                     (put i (mkAgent c (Starting (next w))) (agents w)) (S (next w)))
  else None.

(** asyncio.start_server(sock=...): listen.  In a graph server this happens in its thread (_amain, 217-223):
    if it fails the thread ends, the socket stays, and start() goes on waiting for _server_up (186).
    Then _server_up is set (233) and start() and create_server return (1802-1806).
    A publisher's failure is raised to its caller and the socket is dropped. *)
Definition listen (w : world) (i : nat) (c : call) (n : nat) : world :=
  match get n (socks w) with
  | None => w
  | Some s =>
      match listener (socks w) (s_addr s) with
      | None => mkWorld (put n (mkSock (s_addr s) (s_reuse s) true (s_kind s) (s_owner s)) (socks w))
                        (put i (mkAgent c (Done (Started (s_addr s)))) (agents w)) (next w)
      | Some _ => match kind_of c with
                  | Channel => mkWorld (del n (socks w)) (put i (mkAgent c (Done Unavailable)) (agents w)) (next w)
                  | _ => set_phase w i c (Stuck n)
                  end
      end
  end.

(** The next system call of a call. *)
Definition go (w : world) (i : nat) (c : call) (ph : phase) (port : N) : world :=
  match ph with
  | Connecting =>                               (* asyncio.open_connection *)
      match listener (socks w) (place (target c) 0) with
      | Some s => set_phase w i c (Greeting s)
      | None => set_phase w i c (no_answer c)
      end
  | Greeting n =>                               (* read_str: a graph server says its version first, api 250-252 *)
      match get n (socks w) with
      | Some s => match s_kind s with Graph => if s_listens s then set_phase w i c (Done Found) else w | _ => w end
      | None => w
      end
  | Binding a =>                                (* create_socket with a port, netprotocol.py 384-390 *)
      match bind w i c (place a port) true with Some w' => w' | None => set_phase w i c (Done Unavailable) end
  | Searching h p =>                            (* create_socket without a port, 392-405 *)
      if MAX_PORT <? p then set_phase w i c (Done NoFreePorts)
      else if mem p RESERVED_PORTS then set_phase w i c (Searching h (p + 1))
      else match bind w i c (place (h, p) port) false with
           | Some w' => w'
           | None => set_phase w i c (Searching h (p + 1))
           end
  | Starting n => listen w i c n
  | _ => w
  end.

(** Whether somebody still holds the other end of socket n. *)
Definition alive (w : world) (n : nat) : bool :=
  match get n (socks w) with Some s => match s_kind s with Graph => s_listens s | _ => false end | None => false end.

(** The sockets of call i. *)
Definition owned (i : nat) (s : sock) : bool := match s_owner s with Some j => Nat.eqb i j | None => false end.

(** What is left of a connection accepted by a server: bound to its address, with its options. *)
Definition leftover (s : sock) : sock := mkSock (s_addr s) (s_reuse s) false Foreign None.

Fixpoint number (n : nat) (l : list sock) : list (nat * sock) :=
  match l with [] => [] | s :: r => (n, s) :: number (S n) r end.

(** GraphServer.stop, the SHUTDOWN request, Publisher.close or the end of the process: the sockets of i are
    closed; n connections of each that listened linger. *)
Definition stop (w : world) (i n : nat) : world :=
  match get i (agents w) with
  | None => w
  | Some ag =>
      let mine := filter (fun p => owned i (snd p)) (socks w) in
      let left := flat_map (fun p => if s_listens (snd p) then repeat (leftover (snd p)) n else []) mine in
      mkWorld (filter (fun p => negb (owned i (snd p))) (socks w) ++ number (next w) left)
              (put i (mkAgent (a_call ag) (match a_phase ag with Done o => Done o | _ => Gone end)) (agents w))
              (next w + length left)
  end.

Definition step (w : world) (e : event) : world :=
  match e with
  | Call i c => match get i (agents w) with
                | Some _ => w
                | None => set_phase w i c (first_phase c)
                end
  | Fork i j =>
      match get i (agents w), get j (agents w) with
      | Some (mkAgent (StartCommand a) Forking), None =>
          (* the command line carries --address, so the child's environment does not matter: start.py 23, 33 *)
          let c := Create (Some a) (mkEnv None 0 0) in
          set_phase (set_phase w i (StartCommand a) Connecting) j c (first_phase c)
      | _, _ => w
      end
  | Go i port => match get i (agents w) with Some ag => go w i (a_call ag) (a_phase ag) port | None => w end
  | HangUp i reset =>
      match get i (agents w) with
      | Some (mkAgent c (Greeting n)) => if alive w n then w else set_phase w i c (hung_up c reset)
      | _ => w
      end
  | Stop i n => stop w i n
  | Other a reuse listens =>
      if bindable (socks w) a reuse
      then mkWorld (socks w ++ [(next w, mkSock a reuse listens Foreign None)]) (agents w) (S (next w))
      else w
  | Close n => match get n (socks w) with
               | Some s => match s_owner s with
                           | None => mkWorld (del n (socks w)) (agents w) (next w)
                           | Some _ => w
                           end
               | None => w
               end
  end.

Definition run (w : world) (l : list event) : world := fold_left step l w.

End Machine.

(** ** GraphContext *)

(** GraphContext.graph_address, graphcontext.py 120-125, once _ensure_servers (218-221) has returned with
    [o]: the address handed to every publisher, subscriber and child process (None: the default). *)
Definition graph_address (given : option addr) (o : outcome) : option addr :=
  match o with Started a => Some a | _ => given end.
