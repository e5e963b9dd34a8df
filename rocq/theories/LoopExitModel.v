(* Leaving the event loop of a process, a runner or a SyncContext:
     backendprocess.py:62-64    _strict_shutdown_enabled
     backendprocess.py:67-82    ShutdownSummary
     backendprocess.py:85-124   _DaemonThreadPoolExecutor
     backendprocess.py:808-822  run_loop
     backendprocess.py:825-937  new_threaded_event_loop.
   The main thread, the loop's thread and the workers of the executor; one label = one step of one of them.

   Simplifications: what tasks do is left open (they may end at any time, whether cancelled or not, go on for ever, start
   others, or block the loop's thread); a task that runs without blocking is not a step of its own; the log messages and
   the choice among them are left out. *)

From Coq Require Import List Arith Bool.
Import ListNotations.

Record task := mkTask { alive : bool; asked : bool (* cancel() was called *) }.

(** A call of submit() (112-122) and its job: the future exists, the count was raised (114-115), the callback is attached (121). *)
Inductive stage := Accepted | Counted | Returned.
Record job := mkJob { finished : bool; stg : stage; attached : bool (* the callback waits in the future *); paid : bool (* _decrement has run *) }.

(** _cancel_remaining (877-888) *)
Inductive canceller := KNo | KSent | KWait (ids : list nat) (deadline : nat) | KDone (c p : nat).
(** The main thread. *)
Inductive mainpc := MRun | MAwait (* 895 *) | MStop (* 934-935 *) | MClosed.

(** 67-82 *)
Record summary := mkSum { cancelled_tasks : nat; executor_active : nat; pending_tasks : nat; suppressed_errors : nat; forced_interrupt : bool }.
Definition unclean (r : summary) : bool :=
  negb (executor_active r =? 0) || negb (pending_tasks r =? 0) || negb (suppressed_errors r =? 0) || forced_interrupt r.

Record st := mkSt {
  now : nat;
  tasks : list task;
  busy : option nat;          (* the task that blocks the loop's thread *)
  canc : canceller;
  mpc : mainpc;
  running : bool;             (* the loop's thread is in run_forever *)
  suppressing : bool;         (* shutdown_suppress *)
  suppressed : nat;           (* suppressed_shutdown_errors["count"] *)
  shown : nat;                (* errors handed to the default handler *)
  jobs : list job;
  active : nat;               (* _active_count *)
  result : option summary
}.

Definition init : st := mkSt 0 [] None KNo MRun true false 0 0 [] 0 None.

Definition set_tasks (s : st) (l : list task) (b : option nat) : st :=
  mkSt (now s) l b (canc s) (mpc s) (running s) (suppressing s) (suppressed s) (shown s) (jobs s) (active s) (result s).
Definition set_canc (s : st) (k : canceller) : st :=
  mkSt (now s) (tasks s) (busy s) k (mpc s) (running s) (suppressing s) (suppressed s) (shown s) (jobs s) (active s) (result s).
Definition set_main (s : st) (m : mainpc) (r : bool) : st :=
  mkSt (now s) (tasks s) (busy s) (canc s) m r (suppressing s) (suppressed s) (shown s) (jobs s) (active s) (result s).
Definition set_jobs (s : st) (l : list job) (n : nat) : st :=
  mkSt (now s) (tasks s) (busy s) (canc s) (mpc s) (running s) (suppressing s) (suppressed s) (shown s) l n (result s).

Fixpoint set_nth {A} (i : nat) (x : A) (l : list A) : list A :=
  match l, i with
  | [], _ => []
  | _ :: l, 0 => x :: l
  | y :: l, S i => y :: set_nth i x l
  end.

(** 878-882: the tasks that are not done. *)
Fixpoint living (i : nat) (l : list task) : list nat :=
  match l with
  | [] => []
  | t :: l => if alive t then i :: living (S i) l else living (S i) l
  end.

(** 883-884 *)
Definition ask_all (l : list task) : list task := map (fun t => if alive t then mkTask true true else t) l.

Definition is_alive (s : st) (i : nat) : bool := match nth_error (tasks s) i with Some t => alive t | None => false end.

Section Loop.
Context (strict : bool).      (* EZMSG_STRICT_SHUTDOWN *)
Context (timeout : nat).      (* 1.0 s *)

(** 874-875, 893, 934 *)
Definition leave (s : st) : st :=
  if strict then set_main s MStop (running s)
  else mkSt (now s) (tasks s) (busy s) KSent MAwait (running s) true (suppressed s) (shown s) (jobs s) (active s) (result s).

(** 877-887 *)
Definition cancel (s : st) : st :=
  match living 0 (tasks s) with
  | [] => set_canc s (KDone 0 0)
  | ids => set_canc (set_tasks s (ask_all (tasks s)) (busy s)) (KWait ids (now s + timeout))
  end.

(** 901-932 *)
Definition summarise (s : st) (c p : nat) (forced : bool) : st :=
  mkSt (now s) (tasks s) (busy s) (canc s) MStop (running s) (suppressing s) (suppressed s) (shown s) (jobs s) (active s)
       (Some (mkSum c (active s) p (suppressed s) forced)).

(** 852-861; in strict mode no other handler than the loop's own is installed *)
Definition error (s : st) : st :=
  if suppressing s
  then mkSt (now s) (tasks s) (busy s) (canc s) (mpc s) (running s) (suppressing s) (S (suppressed s)) (shown s) (jobs s) (active s) (result s)
  else mkSt (now s) (tasks s) (busy s) (canc s) (mpc s) (running s) (suppressing s) (suppressed s) (S (shown s)) (jobs s) (active s) (result s).

Inductive label :=
| Tick
| Spawn | End_ (i : nat) | Block (i : nat) | Unblock (i : nat) | Error          (* on the loop *)
| Leave | Result | Interrupt | Join                                           (* the main thread *)
| Cancel | Wake | StopLoop                                                    (* what it has asked the loop to do *)
| JSubmit | JCount (j : nat) | JAttach (j : nat) | JFinish (j : nat) | JCallback (j : nat).

Definition free (s : st) : bool := running s && match busy s with None => true | Some _ => false end.

Definition step (s : st) (a : label) : option st :=
  match a with
  | Tick => Some (mkSt (S (now s)) (tasks s) (busy s) (canc s) (mpc s) (running s) (suppressing s) (suppressed s) (shown s) (jobs s) (active s) (result s))
  | Spawn => if running s then Some (set_tasks s (tasks s ++ [mkTask true false]) (busy s)) else None
  | End_ i =>
      match nth_error (tasks s) i with
      | Some t => if free s && alive t then Some (set_tasks s (set_nth i (mkTask false (asked t)) (tasks s)) (busy s)) else None
      | None => None
      end
  | Block i => if free s && is_alive s i then Some (set_tasks s (tasks s) (Some i)) else None
  | Unblock i => match busy s with Some j => if i =? j then Some (set_tasks s (tasks s) None) else None | None => None end
  | Error => if running s then Some (error s) else None
  | Leave => match mpc s with MRun => Some (leave s) | _ => None end
  | Cancel => match canc s with KSent => if free s then Some (cancel s) else None | _ => None end
  | Wake =>                                                                   (* 887-888; asyncio.wait *)
      match canc s with
      | KWait ids d =>
          let p := filter (is_alive s) ids in
          if free s && (match p with [] => true | _ => false end || (d <=? now s)) then Some (set_canc s (KDone (length ids) (length p))) else None
      | _ => None
      end
  | Result => match mpc s, canc s with MAwait, KDone c p => Some (summarise s c p false) | _, _ => None end   (* 895 *)
  | Interrupt => match mpc s with MAwait => Some (summarise s 0 0 true) | _ => None end                       (* 896-898 *)
  | StopLoop => match mpc s with MStop => if free s then Some (set_main s MStop false) else None | _ => None end
  | Join => match mpc s with MStop => if running s then None else Some (set_main s MClosed false) | _ => None end   (* 935-936 *)
  | JSubmit => Some (set_jobs s (jobs s ++ [mkJob false Accepted false false]) (active s))                    (* 113 *)
  | JCount j =>                                                                                               (* 114-115 *)
      match nth_error (jobs s) j with
      | Some (mkJob f Accepted a p) => Some (set_jobs s (set_nth j (mkJob f Counted a p) (jobs s)) (S (active s)))
      | _ => None
      end
  | JAttach j =>                                                                                              (* 121: at once if the future is done *)
      match nth_error (jobs s) j with
      | Some (mkJob true Counted _ _) => Some (set_jobs s (set_nth j (mkJob true Returned false true) (jobs s)) (pred (active s)))
      | Some (mkJob false Counted _ p) => Some (set_jobs s (set_nth j (mkJob false Returned true p) (jobs s)) (active s))
      | _ => None
      end
  | JFinish j =>
      match nth_error (jobs s) j with
      | Some (mkJob false g a p) => Some (set_jobs s (set_nth j (mkJob true g a p) (jobs s)) (active s))
      | _ => None
      end
  | JCallback j =>
      match nth_error (jobs s) j with
      | Some (mkJob true g true p) => Some (set_jobs s (set_nth j (mkJob true g false true) (jobs s)) (pred (active s)))
      | _ => None
      end
  end.

Fixpoint run (s : st) (l : list label) : option st :=
  match l with
  | [] => Some s
  | a :: l => match step s a with Some s => run s l | None => None end
  end.
End Loop.
