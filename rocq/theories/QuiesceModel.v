(* Model of GraphContext.pause(), sync() and resume() on a running pipeline:
     graphserver.py:426, 491-508  the commands SYNC, PAUSE, RESUME under the command lock,
     graphserver.py:556-557, 1760-1763  COMPLETE of a client; _publishers,
     graphserver.py:1864-1880     GraphService.sync, pause, resume,
     pubclient.py:323-364         Publisher._graph_connection,
     pubclient.py:439-473, 485-504 sync, pause, resume, the gate and the wait of broadcast,
     backpressure.py:86-172       available, wait, lease, free, sync,
     backendprocess.py:775-805    handle_subscriber: a message is held while it is handled,
     netprotocol.py:120-137       ClientInfo.sync_writer.

   asyncio code between two awaits is one step; which step comes next is arbitrary.

   Simplifications.  Publishers and subscribers do not come and go (C82).  A task handles
   the messages of one publisher, one after the other, and for each one publishes on a fixed list
   of publishers, in order; a task without a source publishes when it likes.  A
   broadcast that has its buffer is delivered to the subscribers in one step (how, and what
   happens in between, is in PubSubModel.v, C15, C16, C19), and a release reaches the publisher at
   once.  A broadcast that waits for a buffer gets it once it is free (if several tasks publish on
   one publisher, one at a time).  Subscribers are not leaky.  A COMPLETE reaches the server at
   once. *)

From Coq Require Import List Arith Bool.
From Verif Require Import Dict.
Import ListNotations.

(** The pipeline: the publishers in the order of their registration at the server, their numbers
    of buffers, the tasks, what each is subscribed to, and what each publishes per message. *)
Record config := mkConfig {
  c_pubs : list nat;
  c_bufs : nat -> nat;
  c_tasks : list nat;
  c_src : nat -> option nat;
  c_outs : nat -> list nat
}.

Inductive command := PAUSE | RESUME | SYNC.

(** What a task does: nothing; or handling a message (its number; None: it has no source), with
    the publications still to be made, the first of which may have passed the gate and wait
    for its buffer. *)
Inductive activity := Idle | Busy (m : option nat) (todo : list nat) (waiting : bool).

(** The publisher's _graph_connection in sync(): not at all; waiting until the last lease is gone; or
    woken by that, which a lease granted since does not undo (asyncio.Event.wait looks at the event
    once). *)
Inductive draining := NotSyncing | Waiting | Woken.

Record state := mkState {
  s_run : nat -> bool;                        (* Publisher._running *)
  s_sent : nat -> nat;                        (* Publisher._msg_id *)
  s_held : list (nat * nat * nat);            (* leases: publisher, message, task *)
  s_queue : nat -> list nat;                  (* messages delivered to the task, not taken *)
  s_task : nat -> activity;
  s_inbox : nat -> list command;              (* written to the publisher by the server, not read *)
  s_drain : nat -> draining;
  s_lock : option (nat * list nat * option nat);
                                              (* SYNC of a call holds the lock: publishers still to be told;
                                                 the one whose COMPLETE is awaited *)
  s_calls : list (nat * command);             (* waiting for the lock *)
  s_next : nat;
  s_synced : list nat                         (* calls of sync() that have been answered *)
}.

Definition init : state :=
  mkState (fun _ => true) (fun _ => 0) [] (fun _ => []) (fun _ => Idle) (fun _ => []) (fun _ => NotSyncing) None [] 0 [].

Inductive label :=
(* the program *)
| Begin (t : nat)              (* a task without source publishes *)
| Call (c : command)           (* GraphContext.pause(), resume(), sync() *)
| LocalPause (p : nat)         (* Publisher.pause() *)
| LocalResume (p : nat)        (* Publisher.resume() *)
(* by itself *)
| Take (t : nat)               (* the task receives its next message *)
| Publish (t : nat)            (* broadcast, from the gate on *)
| Wake (t : nat)               (* broadcast has waited for its buffer *)
| Done (t : nat)               (* the message is handled and released *)
| Serve (i : nat)              (* the command has the lock *)
| Tell                         (* SYNC is written to the next publisher *)
| Finish                       (* SYNC is answered *)
| Hear (p : nat)               (* the publisher reads a command *)
| Drained (p : nat).           (* sync() of the publisher returns; COMPLETE *)

Definition upd {A} (f : nat -> A) (k : nat) (v : A) : nat -> A := fun x => if x =? k then v else f x.

Definition set_run x s := mkState x (s_sent s) (s_held s) (s_queue s) (s_task s) (s_inbox s) (s_drain s) (s_lock s) (s_calls s) (s_next s) (s_synced s).
Definition set_held x s := mkState (s_run s) (s_sent s) x (s_queue s) (s_task s) (s_inbox s) (s_drain s) (s_lock s) (s_calls s) (s_next s) (s_synced s).
Definition set_queue x s := mkState (s_run s) (s_sent s) (s_held s) x (s_task s) (s_inbox s) (s_drain s) (s_lock s) (s_calls s) (s_next s) (s_synced s).
Definition set_task x s := mkState (s_run s) (s_sent s) (s_held s) (s_queue s) x (s_inbox s) (s_drain s) (s_lock s) (s_calls s) (s_next s) (s_synced s).
Definition set_inbox x s := mkState (s_run s) (s_sent s) (s_held s) (s_queue s) (s_task s) x (s_drain s) (s_lock s) (s_calls s) (s_next s) (s_synced s).
Definition set_drain x s := mkState (s_run s) (s_sent s) (s_held s) (s_queue s) (s_task s) (s_inbox s) x (s_lock s) (s_calls s) (s_next s) (s_synced s).
Definition set_lock x s := mkState (s_run s) (s_sent s) (s_held s) (s_queue s) (s_task s) (s_inbox s) (s_drain s) x (s_calls s) (s_next s) (s_synced s).
Definition set_calls x s := mkState (s_run s) (s_sent s) (s_held s) (s_queue s) (s_task s) (s_inbox s) (s_drain s) (s_lock s) x (s_next s) (s_synced s).
Definition call c s := mkState (s_run s) (s_sent s) (s_held s) (s_queue s) (s_task s) (s_inbox s) (s_drain s) (s_lock s) (s_calls s ++ [(s_next s, c)]) (S (s_next s)) (s_synced s).
Definition answer i s := mkState (s_run s) (s_sent s) (s_held s) (s_queue s) (s_task s) (s_inbox s) (s_drain s) (s_lock s) (s_calls s) (s_next s) (s_synced s ++ [i]).

Section Step.
Context (cfg : config).

(** The tasks subscribed to the publisher. *)
Definition subs (p : nat) : list nat :=
  filter (fun t => match c_src cfg t with Some q => q =? p | None => false end) (c_tasks cfg).

(** The buffer of the next message holds no lease (backpressure.py:86-96): the message that had it
    before is released by all (pubclient.py:487). *)
Definition available (q : nat) (s : state) : bool :=
  negb (existsb (fun h => let '(p, m, _) := h in (p =? q) && (m + c_bufs cfg q =? s_sent s q)) (s_held s)).

(** The rest of broadcast (pubclient.py:506-569). *)
Definition send (q : nat) (s : state) : state :=
  let m := s_sent s q in
  mkState (s_run s) (upd (s_sent s) q (S m)) (s_held s ++ map (fun t => (q, m, t)) (subs q))
          (fun t => if mem t (subs q) then s_queue s t ++ [m] else s_queue s t)
          (s_task s) (s_inbox s) (s_drain s) (s_lock s) (s_calls s) (s_next s) (s_synced s).

Definition any_held (p : nat) (h : list (nat * nat * nat)) : bool := existsb (fun h => fst (fst h) =? p) h.

(** The last lease of [p] is gone: empty.set() (backpressure.py:175-176). *)
Definition wake_sync (p : nat) (h : list (nat * nat * nat)) (d : draining) : draining :=
  match d with Waiting => if any_held p h then Waiting else Woken | d => d end.

Definition same (p m t : nat) (h : nat * nat * nat) : bool :=
  let '(p', m', t') := h in (p' =? p) && (m' =? m) && (t' =? t).

(** Written to every publisher (graphserver.py:502-508). *)
Definition tell_all (c : command) (s : state) : state :=
  set_inbox (fun p => if mem p (c_pubs cfg) then s_inbox s p ++ [c] else s_inbox s p) s.

Definition step (s : state) (l : label) : option state :=
  match l with
  | Begin t =>
      match s_task s t, c_src cfg t with
      | Idle, None => if mem t (c_tasks cfg) then Some (set_task (upd (s_task s) t (Busy None (c_outs cfg t) false)) s) else None
      | _, _ => None
      end
  | Call c => Some (call c s)                                              (* graphserver.py:1865-1880 *)
  | LocalPause p => Some (set_run (upd (s_run s) p false) s)               (* pubclient.py:459-465 *)
  | LocalResume p => Some (set_run (upd (s_run s) p true) s)               (* pubclient.py:467-473 *)
  | Take t =>                                                              (* backendprocess.py:772, 781 *)
      match s_task s t, s_queue s t with
      | Idle, m :: r => Some (set_task (upd (s_task s) t (Busy (Some m) (c_outs cfg t) false)) (set_queue (upd (s_queue s) t r) s))
      | _, _ => None
      end
  | Publish t =>                                                           (* pubclient.py:485-504 *)
      match s_task s t with
      | Busy m (q :: todo) false =>
          if s_run s q then
            if available q s then Some (set_task (upd (s_task s) t (Busy m todo false)) (send q s))
            else Some (set_task (upd (s_task s) t (Busy m (q :: todo) true)) s)
          else None
      | _ => None
      end
  | Wake t =>                                                              (* pubclient.py:498 *)
      match s_task s t with
      | Busy m (q :: todo) true =>
          if available q s then Some (set_task (upd (s_task s) t (Busy m todo false)) (send q s)) else None
      | _ => None
      end
  | Done t =>                                                              (* backendprocess.py:801-802; pubclient.py:422-424 *)
      match s_task s t, c_src cfg t with
      | Busy (Some m) [] _, Some p =>
          let h := filter (fun h => negb (same p m t h)) (s_held s) in
          Some (set_task (upd (s_task s) t Idle) (set_drain (upd (s_drain s) p (wake_sync p h (s_drain s p))) (set_held h s)))
      | Busy None [] _, _ => Some (set_task (upd (s_task s) t Idle) s)
      | _, _ => None
      end
  | Serve i =>                                                             (* graphserver.py:426 *)
      match s_lock s, get i (s_calls s) with
      | None, Some c =>
          let s1 := set_calls (del i (s_calls s)) s in
          match c with
          | SYNC => Some (set_lock (Some (i, c_pubs cfg, None)) s1)        (* 491-492 *)
          | _ => Some (tell_all c s1)                                      (* 502-508 *)
          end
      | _, _ => None
      end
  | Tell =>                                                                (* graphserver.py:493-495 *)
      match s_lock s with
      | Some (i, p :: rest, None) =>
          Some (set_lock (Some (i, rest, Some p)) (set_inbox (upd (s_inbox s) p (s_inbox s p ++ [SYNC])) s))
      | _ => None
      end
  | Finish =>                                                              (* graphserver.py:499-500 *)
      match s_lock s with
      | Some (i, [], None) => Some (answer i (set_lock None s))
      | _ => None
      end
  | Hear p =>                                                              (* pubclient.py:339-350, 446 *)
      match s_drain s p, s_inbox s p with
      | NotSyncing, c :: r =>
          let s1 := set_inbox (upd (s_inbox s) p r) s in
          match c with
          | PAUSE => Some (set_run (upd (s_run s) p false) s1)
          | RESUME => Some (set_run (upd (s_run s) p true) s1)
          | SYNC => Some (set_drain (upd (s_drain s) p (wake_sync p (s_held s) Waiting)) (set_run (upd (s_run s) p false) s1))
          end
      | _, _ => None
      end
  | Drained p =>                                                           (* pubclient.py:447, 350-351; graphserver.py:556-557 *)
      match s_drain s p with
      | Woken =>
          let s1 := set_drain (upd (s_drain s) p NotSyncing) s in
          match s_lock s with
          | Some (i, rest, Some q) => if q =? p then Some (set_lock (Some (i, rest, None)) s1) else Some s1
          | _ => Some s1
          end
      | _ => None
      end
  end.

Fixpoint steps (s : state) (ls : list label) : option state :=
  match ls with
  | [] => Some s
  | l :: r => match step s l with Some s' => steps s' r | None => None end
  end.

End Step.
