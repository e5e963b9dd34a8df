(* Model of how the processes of a pipeline start and end together:
     backendprocess.py:429-544   process: setting up,
     backendprocess.py:546-548   the start barrier,
     backendprocess.py:550-589   running,
     backendprocess.py:591-653   the stop barrier and shutting down,
     backendprocess.py:659-667   monitor_termination,
     backend.py:118-122          the barriers and term_ev,
     backend.py:634-646          GraphRunner.start (which takes part in the start barrier).

   What tasks, threads, main functions and the methods of units do is arbitrary: they may end when
   they like.  A task that is cancelled ends some time later.

   Simplifications: creating publishers and subscribers and registering are part of the setup of
   the units; reverting the graph context and closing the control client, after the units have been
   shut down, are left out; GraphRunner's own handling of interrupts (C59) is left out. *)

From Coq Require Import List Bool Arith.
Import ListNotations.

(** A process: the number of its units, of its coroutines (475, 510), of its thread functions,
    and whether a unit has a main function (more than one is an error of the setup, 442-454). *)
Record config := Config { units : nat; tasks : nat; threads : nat; has_main : bool }.

Inductive pc :=
| Setup                   (* 429-536 *)
| AtStart                 (* 548: waiting at the start barrier *)
| Run                     (* 550-586 *)
| AtStop                  (* 598: waiting at the stop barrier *)
| Shutdown                (* 603-653 *)
| Ended (clean : bool).   (* process() has returned, or raised *)

Record proc := Proc {
  at_ : pc;
  set_up : nat;           (* units set up *)
  running : list nat;     (* coroutines running *)
  in_threads : nat;       (* thread functions not ended *)
  monitor : bool;         (* monitor_termination runs *)
  in_main : bool;         (* the main function runs *)
  failed : bool           (* an exception is on its way *)
}.

Record system := System {
  procs : nat -> proc;
  term_ev : bool;
  start_open : bool;      (* the start barrier has been passed by all *)
  start_broken : bool;    (* it has been aborted *)
  participant : bool;     (* GraphRunner.start waits there too, and has not come yet *)
  stop_open : bool;
  shut : list (nat * nat) (* units shut down, newest first *)
}.

Section Model.
Variable n : nat.                     (* the number of processes *)
Variable conf : nat -> config.
Variable workers : nat.               (* the threads of the loop's default executor *)
Variable with_participant : bool.     (* GraphRunner.start *)

Definition init : system :=
  System (fun _ => Proc Setup 0 [] 0 false false false) false false false with_participant false [].

Inductive event :=
| SetupUnit (i : nat)              (* unit.setup() returns, 433-434 *)
| SetupFails (i : nat)             (* an exception, 541-544 *)
| SetupDone (i : nat)              (* the process comes to the start barrier *)
| ParticipantComes                 (* backend.py:636 *)
| PassStart (i : nat)
| StartBroken (i : nat)            (* BrokenBarrierError, 588-589 *)
| ThreadEnds (i : nat)
| MonitorStarts (i : nat)
| TaskEnds (i k : nat)             (* it returns, completes or fails *)
| TaskTerminates (i k : nat)       (* it raises NormalTermination: term_ev.set(), 718-720 *)
| TaskCancelled (i k : nat)        (* 664-667 *)
| MainReturns (i : nat)
| MainTerminates (i : nat)         (* NormalTermination, 572-573 *)
| MainRaises (i : nat)             (* another exception *)
| Interrupt (i : nat)              (* KeyboardInterrupt while running *)
| AllDone (i : nat)                (* 583-584 *)
| PassStop (i : nat)               (* 598-603 *)
| ShutUnit (i : nat)               (* unit.shutdown() returns *)
| ShutFails (i : nat)              (* it raises *)
| Finish (i : nat)
| Crash (i : nat)                  (* the process is killed, while it sets up or runs *)
| SetTerm.                         (* GraphRunner.stop, or an interrupt of the main process *)

Definition upd (i : nat) (p : proc) (f : nat -> proc) : nat -> proc := fun j => if j =? i then p else f j.

Definition at_start (p : proc) : bool := match at_ p with AtStart => true | _ => false end.
Definition at_stop (p : proc) : bool := match at_ p with AtStop => true | _ => false end.
Definition all (P : proc -> bool) (f : nat -> proc) : bool := forallb (fun j => P (f j)) (seq 0 n).

Definition set_at (c : pc) (p : proc) : proc :=
  Proc c (set_up p) (running p) (in_threads p) (monitor p) (in_main p) (failed p).

(** multiprocessing.Barrier: the last to come opens it. *)
Definition come_to_start (i : nat) (s : system) : system :=
  let f := upd i (set_at AtStart (procs s i)) (procs s) in
  System f (term_ev s) (start_open s || (all at_start f && negb (participant s) && negb (start_broken s)))
         (start_broken s) (participant s) (stop_open s) (shut s).

Definition come_to_stop (i : nat) (p : proc) (s : system) : system :=
  let f := upd i (set_at AtStop p) (procs s) in
  System f (term_ev s) (start_open s) (start_broken s) (participant s) (stop_open s || all at_stop f) (shut s).

Definition set_proc (i : nat) (p : proc) (s : system) : system :=
  System (upd i p (procs s)) (term_ev s) (start_open s) (start_broken s) (participant s) (stop_open s) (shut s).

Definition set_term (s : system) : system :=
  System (procs s) true (start_open s) (start_broken s) (participant s) (stop_open s) (shut s).

Definition end_task (k : nat) (p : proc) : proc :=
  Proc (at_ p) (set_up p) (remove Nat.eq_dec k (running p)) (in_threads p) (monitor p) (in_main p) (failed p).
Definition end_main (failed : bool) (p : proc) : proc :=
  Proc (at_ p) (set_up p) (running p) (in_threads p) (monitor p) false failed.

(** None: the event cannot happen now. *)
Definition step (s : system) (e : event) : option system :=
  match e with
  | SetTerm => Some (set_term s)
  | ParticipantComes =>
      if participant s && negb (start_broken s) then
        Some (System (procs s) (term_ev s) (all at_start (procs s)) false false (stop_open s) (shut s))
      else if participant s then
        (* backend.py:637-638 *)
        Some (System (procs s) true (start_open s) true false (stop_open s) (shut s))
      else None
  | SetupUnit i =>
      let p := procs s i in
      match at_ p with
      | Setup => if (i <? n) && (set_up p <? units (conf i))
                 then Some (set_proc i (Proc Setup (S (set_up p)) (running p) (in_threads p) (monitor p) (in_main p) (failed p)) s)
                 else None
      | _ => None
      end
  | SetupFails i =>
      match at_ (procs s i) with
      | Setup => if i <? n then
                   Some (System (upd i (set_at (Ended false) (procs s i)) (procs s)) (term_ev s) (start_open s) true
                                (participant s) (stop_open s) (shut s))
                 else None
      | _ => None
      end
  | SetupDone i =>
      match at_ (procs s i) with
      | Setup => if (i <? n) && (set_up (procs s i) =? units (conf i)) then Some (come_to_start i s) else None
      | _ => None
      end
  | PassStart i =>
      let p := procs s i in
      match at_ p with
      | AtStart => if start_open s
                   then Some (set_proc i (Proc Run (set_up p) (seq 0 (tasks (conf i))) (threads (conf i)) (monitor p)
                                               (has_main (conf i)) (failed p)) s)
                   else None
      | _ => None
      end
  | StartBroken i =>
      match at_ (procs s i) with
      | AtStart => if start_broken s then Some (come_to_stop i (procs s i) s) else None
      | _ => None
      end
  | ThreadEnds i =>
      let p := procs s i in
      match in_threads p with
      | S k => Some (set_proc i (Proc (at_ p) (set_up p) (running p) k (monitor p) (in_main p) (failed p)) s)
      | 0 => None
      end
  | MonitorStarts i =>
      (* 566: the thread functions are before it in the queue of the executor *)
      let p := procs s i in
      match at_ p with
      | Run | AtStop | Shutdown =>
          if start_open s && negb (monitor p) && (in_threads p <? workers)
          then Some (set_proc i (Proc (at_ p) (set_up p) (running p) (in_threads p) true (in_main p) (failed p)) s)
          else None
      | _ => None
      end
  | TaskEnds i k =>
      if existsb (Nat.eqb k) (running (procs s i)) then Some (set_proc i (end_task k (procs s i)) s) else None
  | TaskTerminates i k =>
      if existsb (Nat.eqb k) (running (procs s i)) then Some (set_term (set_proc i (end_task k (procs s i)) s)) else None
  | TaskCancelled i k =>
      if existsb (Nat.eqb k) (running (procs s i)) && monitor (procs s i) && term_ev s
      then Some (set_proc i (end_task k (procs s i)) s) else None
  | MainReturns i =>
      match at_ (procs s i) with
      | Run => if in_main (procs s i) then Some (set_proc i (end_main (failed (procs s i)) (procs s i)) s) else None
      | _ => None
      end
  | MainTerminates i =>
      match at_ (procs s i) with
      | Run => if in_main (procs s i)
               then Some (set_term (set_proc i (end_main (failed (procs s i)) (procs s i)) s)) else None
      | _ => None
      end
  | MainRaises i =>
      match at_ (procs s i) with
      | Run => if in_main (procs s i) then Some (come_to_stop i (end_main true (procs s i)) s) else None
      | _ => None
      end
  | Interrupt i =>
      match at_ (procs s i) with
      | Run => Some (come_to_stop i (end_main true (procs s i)) s)
      | _ => None
      end
  | AllDone i =>
      match at_ (procs s i), running (procs s i) with
      | Run, [] => if in_main (procs s i) then None else Some (come_to_stop i (procs s i) s)
      | _, _ => None
      end
  | PassStop i =>
      match at_ (procs s i) with
      | AtStop => if stop_open s then Some (set_term (set_proc i (set_at Shutdown (procs s i)) s)) else None
      | _ => None
      end
  | ShutUnit i =>
      match at_ (procs s i) with
      | Shutdown =>
          let k := length (filter (fun x => fst x =? i) (shut s)) in
          if k <? units (conf i)
          then Some (System (procs s) (term_ev s) (start_open s) (start_broken s) (participant s) (stop_open s) ((i, k) :: shut s))
          else None
      | _ => None
      end
  | ShutFails i =>
      match at_ (procs s i) with
      | Shutdown =>
          if length (filter (fun x => fst x =? i) (shut s)) <? units (conf i)
          then Some (set_proc i (set_at (Ended false) (procs s i)) s) else None
      | _ => None
      end
  | Finish i =>
      match at_ (procs s i) with
      | Shutdown =>
          if length (filter (fun x => fst x =? i) (shut s)) =? units (conf i)
          then Some (set_proc i (set_at (Ended (negb (failed (procs s i)))) (procs s i)) s) else None
      | _ => None
      end
  | Crash i =>
      match at_ (procs s i) with
      | Setup | Run =>
          if i <? n then Some (set_proc i (Proc (Ended false) (set_up (procs s i)) [] 0 false false true) s) else None
      | _ => None
      end
  end.

(** Histories, newest event first. *)
Inductive after : list event -> system -> Prop :=
| after_init : after [] init
| after_event h s e s' : after h s -> step s e = Some s' -> after (e :: h) s'.

End Model.
