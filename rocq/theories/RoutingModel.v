(* Model of the routing updates the graph server sends to subscribers:
     graphserver.py:1732-1758 _notify_downstream_for_topic, _notify_subscriber,
     graphserver.py:1771-1782 _upstream_pubs, _downstream_subs,
     graphserver.py:444-462, 491-497, 1559-1566, 1568-1574, 631-640 (who notifies),
     graphserver.py:548-566 _handle_client (COMPLETE and disconnection),
     netprotocol.py:110-137 ClientInfo.sync_writer,
   on top of the commands of ServerModel.v.

   A command that must notify starts a task.  The tasks of PUBLISH, SUBSCRIBE,
   CONNECT and DISCONNECT run under [_command_lock] (graphserver.py:426); those of
   session commands run after it is released (graphserver.py:1563-1574, 637-638).
   asyncio: a task runs until it waits.  Event.wait() returns at once if the event
   is set; otherwise set() schedules every waiter, and a waiter that runs later
   does not look at the event again.  An update that is scheduled to start has
   phase [PStart] (wait_for runs it in a new task).

   Simplifications: which step happens next is arbitrary, so schedules that the
   event loop's queue order excludes are included; a write to the connection of a
   subscriber that has gone is recorded like any other (nobody reads it); the
   1-second timeout may fire at any time, except before the update has started
   (the start is queued before the timer can be). *)

From Coq Require Import String List Arith Bool.
From Verif Require Import Dict DagModel EventLogModel ServerModel.
Import ListNotations.

(** graphserver.py:1760-1763, 1771-1775 — _publishers, _upstream_pubs: the ids. *)
Definition upstream_pubs (t : topic) (s : server) : list nat :=
  flat_map (fun p => match snd p with
                     | CPub tp => if mem tp (upstream t (s_dag s)) then [fst p] else []
                     | _ => []
                     end) (s_clients s).

(** graphserver.py:1765-1768, 1777-1780 — _subscribers, _downstream_subs: id and topic. *)
Definition downstream_subs (t : topic) (s : server) : list (nat * topic) :=
  flat_map (fun p => match snd p with
                     | CSub ts => if mem ts (downstream t (s_dag s)) then [(fst p, ts)] else []
                     | _ => []
                     end) (s_clients s).

(** Where an update is in sync_writer (netprotocol.py:129-137). *)
Inductive phase :=
| PStart                       (* about to run *)
| PWaiting                     (* in the first [_pending.wait()] *)
| PReady                       (* woken, about to write *)
| PWritten                     (* written, in the second [_pending.wait()] *)
| PReleased.                   (* woken, about to leave *)

Record update := mkUpd { u_sub : nat; u_pubs : list nat; u_phase : phase }.

(** A task: topics still to visit, subscribers of the current topic still to
    notify, the update being sent, and whether it holds the command lock. *)
Record task := mkTask { tk_topics : list topic; tk_subs : list (nat * topic);
                        tk_upd : option update; tk_locks : bool }.

Record net := mkNet {
  n_srv : server;
  n_tid : nat;
  n_tasks : list (nat * task);
  n_clear : list nat;                       (* subscribers whose event is not set *)
  n_computed : list (nat * list nat);       (* updates in the order they were computed *)
  n_written : list (nat * list nat)         (* updates in the order they were written *)
}.

Definition new_net (slimit tlimit : nat) : net := mkNet (new_server slimit tlimit) 0 [] [] [] [].

(** Commands whose notifications run under the lock. *)
Definition locks (l : label) : bool :=
  match l with LPublish _ | LSubscribe _ | LConnect _ _ | LDisconnect _ _ => true | _ => false end.

(** Commands that take the lock before anything else, among those that notify. *)
Definition takes_lock (l : label) : bool :=
  match l with
  | LSessConnect _ _ _ | LSessDisconnect _ _ _ | LSessClear _ | LSessGone _ => true
  | _ => locks l
  end.

Definition locked (n : net) : bool := existsb (fun p => tk_locks (snd p)) (n_tasks n).

(** The task for a piece of work. *)
Definition task_for (l : label) (s : server) (w : work) : task :=
  match w with
  | WTopics ts => mkTask ts [] None (locks l)
  | WSub id => mkTask [] (match get id (s_clients s) with Some (CSub t) => [(id, t)] | _ => [] end)
                      None (locks l)
  end.

(** Event.set(): the waiters of this subscriber are scheduled. *)
Definition wake_update (i : nat) (u : update) : update :=
  if eqd (u_sub u) i then
    mkUpd (u_sub u) (u_pubs u)
          (match u_phase u with PWaiting => PReady | PWritten => PReleased | p => p end)
  else u.

Definition wake_task (i : nat) (t : task) : task :=
  mkTask (tk_topics t) (tk_subs t) (option_map (wake_update i) (tk_upd t)) (tk_locks t).

Definition set_event (i : nat) (n : net) : net :=
  mkNet (n_srv n) (n_tid n) (map (fun p => (fst p, wake_task i (snd p))) (n_tasks n))
        (sdel i (n_clear n)) (n_computed n) (n_written n).

Definition set_tasks (x : list (nat * task)) (n : net) : net :=
  mkNet (n_srv n) (n_tid n) x (n_clear n) (n_computed n) (n_written n).

(** [yield writer] with the two writes, then [_pending.clear()] (netprotocol.py:131-133);
    no await in between. *)
Definition write_update (k : nat) (t : task) (u : update) (n : net) : net :=
  mkNet (n_srv n) (n_tid n)
        (put k (mkTask (tk_topics t) (tk_subs t) (Some (mkUpd (u_sub u) (u_pubs u) PWritten)) (tk_locks t))
             (n_tasks n))
        (sadd (u_sub u) (n_clear n)) (n_computed n) (n_written n ++ [(u_sub u, u_pubs u)]).

Definition drop_update (k : nat) (t : task) (n : net) : net :=
  set_tasks (put k (mkTask (tk_topics t) (tk_subs t) None (tk_locks t)) (n_tasks n)) n.

Inductive nlabel :=
| NCmd (l : label)                 (* a command, or a connection closing *)
| NTopic (k : nat)                 (* graphserver.py:1733: the next topic's subscribers *)
| NCompute (k : nat)               (* graphserver.py:1738: the update for the next subscriber *)
| NEnter (k : nat)                 (* the update reaches the first wait *)
| NWrite (k : nat)                 (* a woken update writes *)
| NLeave (k : nat)                 (* a woken update leaves sync_writer *)
| NTimeout (k : nat)               (* asyncio.wait_for gives up, graphserver.py:1753 *)
| NComplete (i : nat)              (* COMPLETE arrives from a subscriber *)
| NEnd (k : nat).                  (* nothing left to notify *)

Definition nstep (n : net) (a : nlabel) : option (net * option reply) :=
  match a with
  | NCmd l =>
      if takes_lock l && locked n then None
      else match step (n_srv n) l with
           | None => None
           | Some (s', r, w) =>
               let n1 := match l with
                         | LClientGone i => set_event i n        (* graphserver.py:564 *)
                         | _ => n
                         end in
               match w with
               | [] => Some (mkNet s' (n_tid n1) (n_tasks n1) (n_clear n1) (n_computed n1) (n_written n1),
                             Some r)
               | x :: _ => Some (mkNet s' (S (n_tid n1))
                                       (put (n_tid n1) (task_for l s' x) (n_tasks n1))
                                       (n_clear n1) (n_computed n1) (n_written n1), Some r)
               end
           end
  | NTopic k =>
      match get k (n_tasks n) with
      | Some (mkTask (t :: ts) [] None b) =>
          Some (set_tasks (put k (mkTask ts (downstream_subs t (n_srv n)) None b) (n_tasks n)) n, None)
      | _ => None
      end
  | NCompute k =>
      match get k (n_tasks n) with
      | Some (mkTask ts ((i, t) :: r) None b) =>
          let pubs := upstream_pubs t (n_srv n) in
          Some (mkNet (n_srv n) (n_tid n)
                      (put k (mkTask ts r (Some (mkUpd i pubs PStart)) b) (n_tasks n))
                      (n_clear n) (n_computed n ++ [(i, pubs)]) (n_written n), None)
      | _ => None
      end
  | NEnter k =>
      match get k (n_tasks n) with
      | Some t =>
          match tk_upd t with
          | Some (mkUpd i pubs PStart) =>
              if mem i (n_clear n)
              then Some (set_tasks (put k (mkTask (tk_topics t) (tk_subs t)
                                                  (Some (mkUpd i pubs PWaiting)) (tk_locks t)) (n_tasks n)) n, None)
              else Some (write_update k t (mkUpd i pubs PStart) n, None)
          | _ => None
          end
      | None => None
      end
  | NWrite k =>
      match get k (n_tasks n) with
      | Some t =>
          match tk_upd t with
          | Some (mkUpd i pubs PReady) => Some (write_update k t (mkUpd i pubs PReady) n, None)
          | _ => None
          end
      | None => None
      end
  | NLeave k =>
      match get k (n_tasks n) with
      | Some t =>
          match tk_upd t with
          | Some (mkUpd i pubs PReleased) => Some (set_event i (drop_update k t n), None)
          | _ => None
          end
      | None => None
      end
  | NTimeout k =>
      match get k (n_tasks n) with
      | Some t =>
          match tk_upd t with
          | Some (mkUpd i pubs PWaiting) | Some (mkUpd i pubs PReady) =>
              Some (drop_update k t n, None)           (* cancelled before [try] *)
          | Some (mkUpd i pubs PWritten) | Some (mkUpd i pubs PReleased) =>
              Some (set_event i (drop_update k t n), None)   (* the [finally] *)
          | _ => None
          end
      | None => None
      end
  | NComplete i =>
      match get i (s_clients (n_srv n)) with
      | Some (CSub _) => Some (set_event i n, None)
      | _ => None
      end
  | NEnd k =>
      match get k (n_tasks n) with
      | Some (mkTask [] [] None _) => Some (set_tasks (del k (n_tasks n)) n, None)
      | _ => None
      end
  end.

(** Executions, with the list of steps taken (most recent last). *)
Inductive nrun (slimit tlimit : nat) : net -> list nlabel -> Prop :=
| nrun_new : nrun slimit tlimit (new_net slimit tlimit) []
| nrun_step n h a n' r : nrun slimit tlimit n h -> nstep n a = Some (n', r) ->
    nrun slimit tlimit n' (h ++ [a]).
