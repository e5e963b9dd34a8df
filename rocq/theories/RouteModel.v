(* Requests to processes, with the locks and the write buffers they go through:
     graphserver.py:1259-1321  _route_process_request,
     graphserver.py:1189-1229  _handle_process_route_response_request,
     graphserver.py:651-748    _handle_process (one command at a time; what is done when the connection ends),
     graphserver.py:750-766    _write_process_response,
     graphserver.py:426        the command lock that every other command of the graph takes,
     netprotocol.py:180-188    ProcessInfo.write_lock,
     asyncio.Lock (first come, first served), StreamWriter.drain (waits from the moment more than the
     high-water mark is unsent until no more than the low-water mark is), wait_for.
   A task is a coroutine of the server that wants something done: a graph command, a request to a process,
   the handling of what a process has sent, or of its end.

   Simplifications: the process a request is for is given by its number instead of by a unit it owns; what a
   command does to the graph is left out (ServerModel.v), and so are commands that wait while they hold the
   command lock (RoutingModel.v, ApiModel.v); a process's messages to the server are handled one at a time, and what it sends
   while one is being handled is not a step before that one is done; sizes are in bytes, and [buf] is what the
   process has not taken yet of what was written to it, whether it is in the transport or in the kernel. *)

From Coq Require Import List Arith Bool.
Import ListNotations.

Record proc := mkProc {
  gone : bool;            (* its connection has ended *)
  leaving : bool;         (* its handler has noticed, and is in its [finally] (710-748) *)
  listed : bool;          (* it is in self.clients *)
  buf : nat;
  wq : list nat           (* the tasks at its write_lock; the first one holds it *)
}.

Inductive kind :=
| Cmd                                (* a graph command (426), or any other section under the command lock that does not wait *)
| Route (p size tmo : nat)           (* 1259 *)
| Resp (p r v : nat)                 (* 1189: process [p] answers request [r] with [v] *)
| Rep (p size : nat)                 (* 663-689: a command of process [p], to be answered *)
| Bye (p : nat).                     (* 710-748 *)

Inductive outcome := Ok | Unroutable | WriteFailed | Answered (v : nat) | Invalid (q : nat) | Disconnected | TimedOut.

Inductive pc :=
| WantLock                (* at the command lock *)
| WantWrite               (* at the write lock (1290, 762) *)
| Draining                (* 1296, 765 *)
| Awaiting (d : nat)      (* 1308 *)
| WantAgain               (* at the command lock again, after the time-out (1310) *)
| Done (o : outcome).

Record task := mkTask {
  knd : kind;
  at_ : pc;
  pend : bool;            (* its id is in _pending_process_requests *)
  res : option outcome    (* response_fut *)
}.

Record st := mkSt { now : nat; procs : list proc; tasks : list task; cq : list nat (* the tasks at the command lock; the first one holds it *) }.

Definition init : st := mkSt 0 [] [] [].

Fixpoint set_nth {A} (i : nat) (x : A) (l : list A) : list A :=
  match l, i with
  | [], _ => []
  | _ :: l, 0 => x :: l
  | y :: l, S i => y :: set_nth i x l
  end.

Definition set_at (t : task) (x : pc) : task := mkTask (knd t) x (pend t) (res t).
Definition set_task (s : st) (i : nat) (t : task) : st := mkSt (now s) (procs s) (set_nth i t (tasks s)) (cq s).
Definition set_proc (s : st) (p : nat) (x : proc) : st := mkSt (now s) (set_nth p x (procs s)) (tasks s) (cq s).
Definition set_buf (x : proc) (n : nat) : proc := mkProc (gone x) (leaving x) (listed x) n (wq x).
Definition set_wq (x : proc) (l : list nat) : proc := mkProc (gone x) (leaving x) (listed x) (buf x) l.
(** The command lock is released; the next in line gets it. *)
Definition pop_c (s : st) : st := mkSt (now s) (procs s) (tasks s) (tl (cq s)).
Definition push_c (s : st) (i : nat) : st := mkSt (now s) (procs s) (tasks s) (cq s ++ [i]).

Definition first (l : list nat) (i : nat) : bool := match l with j :: _ => i =? j | [] => false end.

(** 1200-1229: what an answer [v] of process [p] does to the request *)
Definition answer (p v : nat) (t : task) : task :=
  match knd t with
  | Route q _ _ =>
      if pend t
      then mkTask (knd t) (at_ t) false (match res t with None => Some (if p =? q then Answered v else Invalid p) | r => r end)
      else t
  | _ => t
  end.

(** 713-734: what the end of process [p] does to the requests *)
Definition farewell (p : nat) (t : task) : task :=
  match knd t with
  | Route q _ _ =>
      if pend t && (q =? p)
      then mkTask (knd t) (at_ t) false (match res t with None => Some Disconnected | r => r end)
      else t
  | _ => t
  end.

Definition busy_with (p : nat) (t : task) : bool :=
  match knd t, at_ t with
  | _, Done _ => false
  | Resp q _ _, _ | Rep q _, _ => q =? p
  | _, _ => false
  end.
(** The handler of [p] waits for the next command. *)
Definition idle (s : st) (p : nat) : bool := negb (existsb (busy_with p) (tasks s)).

Section Server.
Context (high low : nat).

Definition target (t : task) : nat := match knd t with Route p _ _ | Rep p _ => p | _ => 0 end.
Definition size_of (t : task) : nat := match knd t with Route _ z _ | Rep _ z => z | _ => 0 end.

(** The task has its turn at the command lock. *)
Definition enter (s : st) (i : nat) (t : task) : option st :=
  match knd t, at_ t with
  | Cmd, WantLock => Some (pop_c (set_task s i (set_at t (Done Ok))))
  | Route p _ _, WantLock =>                                                        (* 1278-1287 *)
      match nth_error (procs s) p with
      | Some x =>
          if listed x
          then Some (set_proc (set_task s i (mkTask (knd t) WantWrite true (res t))) p (set_wq x (wq x ++ [i])))
          else Some (pop_c (set_task s i (set_at t (Done Unroutable))))
      | None => Some (pop_c (set_task s i (set_at t (Done Unroutable))))
      end
  | Route _ _ _, WantAgain => Some (pop_c (set_task s i (mkTask (knd t) (Done TimedOut) false (res t))))   (* 1310-1321 *)
  | Resp p r v, WantLock =>
      let s := pop_c (set_task s i (set_at t (Done Ok))) in
      match nth_error (tasks s) r with
      | Some q => Some (set_task s r (answer p v q))
      | None => Some s
      end
  | Rep p _, WantLock =>
      match nth_error (procs s) p with
      | Some x => Some (set_proc (pop_c (set_task s i (set_at t WantWrite))) p (set_wq x (wq x ++ [i])))
      | None => None
      end
  | Bye p, WantLock =>
      match nth_error (procs s) p with
      | Some x =>
          let s := pop_c (set_task s i (set_at t (Done Ok))) in
          Some (set_proc (mkSt (now s) (procs s) (map (farewell p) (tasks s)) (cq s)) p (mkProc (gone x) (leaving x) false (buf x) (wq x)))
      | None => None
      end
  | _, _ => None
  end.

(** drain() has returned, or raised (1297-1305); both locks are released. *)
Definition leave (s : st) (i : nat) (t : task) (p : nat) (x : proc) : st :=
  let s1 := set_proc s p (set_wq x (tl (wq x))) in
  match knd t with
  | Route _ _ tmo =>
      if gone x
      then pop_c (set_task s1 i (mkTask (knd t) (Done WriteFailed) false (res t)))
      else pop_c (set_task s1 i (set_at t (Awaiting (now s + tmo))))
  | _ => set_task s1 i (set_at t (Done (if gone x then WriteFailed else Ok)))
  end.

Definition write (s : st) (i : nat) (t : task) : option st :=
  match nth_error (procs s) (target t) with
  | Some x =>
      if first (wq x) i
      then let x := if gone x then x else set_buf x (buf x + size_of t) in
           if gone x || (buf x <=? high)
           then Some (leave s i t (target t) x)
           else Some (set_task (set_proc s (target t) x) i (set_at t Draining))
      else None
  | None => None
  end.

Inductive label :=
| Tick | NewProc | Ask (k : kind) | Respond (p r v : nat) | Report (p size : nat) | Read (p n : nat) | Kill (p : nat)
| Enter (i : nat) | Write (i : nat) | Drained (i : nat) | Expire (i : nat) | Take (i : nat) | Notice (p : nat).

Definition spawn (s : st) (k : kind) : st :=
  push_c (mkSt (now s) (procs s) (tasks s ++ [mkTask k WantLock false None]) (cq s)) (length (tasks s)).

Definition step (s : st) (a : label) : option st :=
  match a with
  | Tick => Some (mkSt (S (now s)) (procs s) (tasks s) (cq s))
  | NewProc => Some (mkSt (now s) (procs s ++ [mkProc false false true 0 []]) (tasks s) (cq s))          (* 410-422 *)
  | Ask Cmd => Some (spawn s Cmd)
  | Ask (Route p z d) => Some (spawn s (Route p z d))
  | Ask _ => None
  | Respond p r v =>
      match nth_error (procs s) p with
      | Some x => if negb (leaving x) && idle s p then Some (spawn s (Resp p r v)) else None
      | None => None
      end
  | Report p z =>
      match nth_error (procs s) p with
      | Some x => if negb (leaving x) && idle s p then Some (spawn s (Rep p z)) else None
      | None => None
      end
  | Read p n =>
      match nth_error (procs s) p with
      | Some x => if negb (gone x) && (n <=? buf x) then Some (set_proc s p (set_buf x (buf x - n))) else None
      | None => None
      end
  | Kill p =>
      match nth_error (procs s) p with
      | Some x => Some (set_proc s p (mkProc true (leaving x) (listed x) (buf x) (wq x)))
      | None => None
      end
  | Enter i =>
      match nth_error (tasks s) i with
      | Some t => if first (cq s) i then enter s i t else None
      | None => None
      end
  | Write i =>
      match nth_error (tasks s) i with
      | Some t => match at_ t with WantWrite => write s i t | _ => None end
      | None => None
      end
  | Drained i =>
      match nth_error (tasks s) i with
      | Some t =>
          match at_ t, nth_error (procs s) (target t) with
          | Draining, Some x => if gone x || (buf x <=? low) then Some (leave s i t (target t) x) else None
          | _, _ => None
          end
      | None => None
      end
  | Expire i =>
      match nth_error (tasks s) i with
      | Some t =>
          match at_ t, res t with
          | Awaiting d, None => if d <=? now s then Some (push_c (set_task s i (set_at t WantAgain)) i) else None
          | _, _ => None
          end
      | None => None
      end
  | Take i =>
      match nth_error (tasks s) i with
      | Some t => match at_ t, res t with Awaiting _, Some o => Some (set_task s i (set_at t (Done o))) | _, _ => None end
      | None => None
      end
  | Notice p =>
      match nth_error (procs s) p with
      | Some x =>
          if gone x && negb (leaving x) && idle s p
          then Some (spawn (set_proc s p (mkProc true true (listed x) (buf x) (wq x))) (Bye p))
          else None
      | None => None
      end
  end.

Fixpoint run (s : st) (l : list label) : option st :=
  match l with
  | [] => Some s
  | a :: l => match step s a with Some s => run s l | None => None end
  end.
End Server.
