(* Model of the life cycle of GraphRunner (src/ezmsg/core/backend.py:321-380, 622-885) and of
   SyncContext (src/ezmsg/core/sync.py:118-159, 242-356).

   What happens outside is given with each call: whether setting up, opening the graph context,
   starting processes and leaving the graph context succeed, and where interrupts arrive.  Every
   effect on the outside is recorded in a log, newest first. *)

From Coq Require Import List Bool Arith.
Import ListNotations.

Inductive effect :=
| LoopOpened                (* new_threaded_event_loop().__enter__ *)
| LoopClosed                (* its __exit__ *)
| GraphOpened               (* GraphContext.__aenter__ *)
| GraphClosed               (* GraphContext.__aexit__ *)
| Spawned (p : nat)         (* proc.start() *)
| Joined (p : nat)          (* proc.join() *)
| Terminated (p : nat)      (* proc.terminate() *)
| TermSet                   (* term_ev.set() *)
| Running.                  (* _started becomes True *)

Inductive result := Returned | Raised | Died (* _exit_with_sigint *).

(** ** GraphRunner *)

(** 363-380.  Processes are numbered over all attempts to start, so that each number stands for one
    process object; [r_next] is the next free number. *)
Record runner := Runner {
  r_started : bool;
  r_stopped : bool;
  r_cleanup_done : bool;
  r_ctx : bool;              (* _execution_context is not None *)
  r_loop : bool;             (* _loop_cm, _loop are not None *)
  r_graph : bool;            (* _graph_context is not None *)
  r_spawned : list nat;      (* _spawned_processes *)
  r_next : nat;
  r_log : list effect
}.

Definition new_runner : runner := Runner false false false false false false [] 0 [].

Definition log_it (es : list effect) (s : runner) : runner :=
  Runner (r_started s) (r_stopped s) (r_cleanup_done s) (r_ctx s) (r_loop s) (r_graph s) (r_spawned s) (r_next s) (es ++ r_log s).

(** 866-885: _cleanup.  [ok]: GraphContext.__aexit__ does not raise. *)
Definition cleanup (ok : bool) (s : runner) : runner * result :=
  if r_cleanup_done s then (s, Returned) else
  if r_graph s && r_loop s && negb ok then
    (Runner (r_started s) (r_stopped s) true (r_ctx s) (r_loop s) (r_graph s) (r_spawned s) (r_next s) (r_log s), Raised)
  else
    (Runner (r_started s) (r_stopped s) true (r_ctx s) false false [] (r_next s)
            ((if r_loop s then [LoopClosed] else []) ++ (if r_graph s && r_loop s then [GraphClosed] else []) ++ r_log s),
     Returned).

(** How setting up goes. *)
Inductive setup_env :=
| SetupRaises              (* ExecutionContext.setup raises *)
| SetupEmpty               (* it returns None: there is no process *)
| GraphRaises              (* GraphContext.__aenter__ raises *)
| ConnectRaises            (* creating processes, connecting or registering raises *)
| SetupOk.

(** 672-744: _initialize.  The result: None, it raises; Some b, it returns b. *)
Definition initialize (e : setup_env) (exit_ok : bool) (s : runner) : runner * option bool :=
  (* 674-676 *)
  let s0 := Runner (r_started s) (r_stopped s) false (r_ctx s) (r_loop s) (r_graph s) [] (r_next s) (r_log s) in
  match e with
  | SetupRaises => (s0, None)
  | SetupEmpty => (Runner (r_started s) (r_stopped s) false false (r_loop s) (r_graph s) [] (r_next s) (r_log s), Some false)
  | _ =>
      let s1 := Runner (r_started s) (r_stopped s) false true true (r_graph s) [] (r_next s) (LoopOpened :: r_log s) in
      match e with
      | GraphRaises => (fst (cleanup exit_ok s1), None)
      | _ =>
          let s2 := Runner (r_started s) (r_stopped s) false true true true [] (r_next s) (GraphOpened :: LoopOpened :: r_log s) in
          match e with
          | ConnectRaises => (fst (cleanup exit_ok s2), None)
          | _ => (s2, Some true)
          end
      end
  end.

(** 746-749: _start_processes of n processes. *)
Definition start_processes (n : nat) (s : runner) : runner :=
  Runner (r_started s) (r_stopped s) (r_cleanup_done s) (r_ctx s) (r_loop s) (r_graph s)
         (r_spawned s ++ seq (r_next s) n) (r_next s + n) (rev (map Spawned (seq (r_next s) n)) ++ r_log s).

(** 751-763: _join_spawned_processes: it returns when all of them have ended. *)
Definition join_spawned (s : runner) : runner := log_it (map Joined (r_spawned s)) s.

Definition set_term (s : runner) : runner := log_it [TermSet] s.

Definition set_flags (started stopped : bool) (s : runner) : runner :=
  Runner started stopped (r_cleanup_done s) (r_ctx s) (r_loop s) (r_graph s) (r_spawned s) (r_next s) (r_log s).

(** How the processes come up. *)
Inductive spawn_env :=
| SpawnRaises (k : nat)    (* k processes are started, then proc.start() raises *)
| BarrierBroken (n : nat)  (* n processes are started; one of them ends before the barrier *)
| SpawnOk (n : nat).

(** 622-648: start.  [single]: force_single_process was given. *)
Definition runner_start (single : bool) (e : setup_env) (sp : spawn_env) (exit_ok : bool) (s : runner) : runner * result :=
  if r_started s then (s, Raised) else
  if r_stopped s then (s, Raised) else
  if single then (s, Raised) else
  match initialize e exit_ok s with
  | (s1, None) => (s1, Raised)
  | (s1, Some false) => (s1, Returned)
  | (s1, Some true) =>
      match sp with
      | SpawnRaises k => (start_processes k s1, Raised)
      | BarrierBroken n =>
          match cleanup exit_ok (join_spawned (set_term (start_processes n s1))) with
          | (s2, Returned) => (set_flags (r_started s2) true s2, Raised)
          | (s2, r) => (s2, r)
          end
      | SpawnOk n => (set_flags true (r_stopped s1) (log_it [Running] (start_processes n s1)), Returned)
      end
  end.

(** 650-659: stop *)
Definition runner_stop (exit_ok : bool) (s : runner) : runner * result :=
  if negb (r_started s) then (s, Raised) else
  if negb (r_ctx s) then (s, Raised) else
  match cleanup exit_ok (join_spawned (set_term s)) with
  | (s1, Returned) => (set_flags false true s1, Returned)
  | (s1, r) => (s1, r)
  end.

(** How the body of _run_main_process goes, 774-779. *)
Inductive body_end := BodyOk | BodyInterrupt | BodyRaises.

(** Interrupts in the final loop, 800-822; after the last of them the loop is not interrupted. *)
Inductive last_interrupt := InJoin | InCleanup.

Record run_env := RunEnv {
  run_spawned : nat;            (* how many processes have been started *)
  run_all : bool;               (* all of them have: _started becomes True *)
  run_body : body_end;
  run_join_interrupted : bool;  (* 788-789: another interrupt while waiting *)
  run_last : list last_interrupt;
  run_unclean : bool            (* _shutdown_was_unclean *)
}.

Definition terminate_all (s : runner) : runner := log_it (map Terminated (r_spawned s)) s.

(** The final loop, 799-822.  The interrupt in _cleanup arrives while it waits for
    GraphContext.__aexit__ (874-876): _cleanup_done has been set.  The result: the state, the number
    of interrupts, forced, and whether _cleanup raised. *)
Fixpoint final_loop (exit_ok : bool) (ls : list last_interrupt) (interrupts : nat) (forced : bool) (s : runner)
  : runner * nat * bool * result :=
  match ls with
  | [] => let (s1, r) := cleanup exit_ok (join_spawned s) in (s1, interrupts, forced, r)
  | l :: ls =>
      let s0 := match l with
                | InJoin => Some s
                | InCleanup =>
                    let sj := join_spawned s in
                    if r_cleanup_done sj then None
                    else if r_graph sj && r_loop sj then
                      Some (Runner (r_started sj) (r_stopped sj) true (r_ctx sj) (r_loop sj) (r_graph sj) (r_spawned sj) (r_next sj) (r_log sj))
                    else None
                end in
      match s0 with
      | None => (* there is nothing to wait for: the interrupt cannot arrive here *)
          let (s1, r) := cleanup exit_ok (join_spawned s) in (s1, interrupts, forced, r)
      | Some s1 =>
          if 2 <=? S interrupts then
            let (s2, r) := cleanup exit_ok (terminate_all s1) in (s2, S interrupts, true, r)
          else final_loop exit_ok ls (S interrupts) forced (set_term s1)
      end
  end.

(** 765-826: _run_main_process *)
Definition run_main (e : run_env) (exit_ok : bool) (s : runner) : runner * result :=
  let s1 := start_processes (run_spawned e) s in
  let s2 := if run_all e then set_flags true (r_stopped s1) (log_it [Running] s1) else s1 in
  let '(s3, interrupts, forced) :=
    match run_body e with
    | BodyOk => (join_spawned s2, 0, false)
    | BodyRaises => (s2, 0, false)
    | BodyInterrupt =>
        let s' := set_term s2 in
        if run_join_interrupted e then (terminate_all s', 2, true) else (join_spawned s', 1, false)
    end in
  let '(s4, interrupts, forced, r) := final_loop exit_ok (run_last e) interrupts forced s3 in
  match r with
  | Raised | Died => (s4, Raised)       (* 823-824 are not reached *)
  | Returned =>
      let s5 := set_flags false true s4 in
      if forced || ((0 <? interrupts) && run_unclean e) then (s5, Died)
      else (s5, match run_body e with BodyRaises => Raised | _ => Returned end)
  end.

(** 661-670: run_blocking *)
Definition runner_run (e : setup_env) (re : run_env) (exit_ok : bool) (s : runner) : runner * result :=
  if r_started s then (s, Raised) else
  if r_stopped s then (s, Raised) else
  match initialize e exit_ok s with
  | (s1, None) => (s1, Raised)
  | (s1, Some false) => (s1, Returned)
  | (s1, Some true) => run_main re exit_ok s1
  end.

Inductive runner_call :=
| RStart (e : setup_env) (sp : spawn_env) (exit_ok : bool)
| RStop (exit_ok : bool)
| RRun (e : setup_env) (re : run_env) (exit_ok : bool).

Definition runner_do (single : bool) (s : runner) (c : runner_call) : runner * result :=
  match c with
  | RStart e sp ok => runner_start single e sp ok s
  | RStop ok => runner_stop ok s
  | RRun e re ok => runner_run e re ok s
  end.

(** Calls, newest first, with their results. *)
Inductive runner_after (single : bool) : list (runner_call * result) -> runner -> Prop :=
| runner_after_new : runner_after single [] new_runner
| runner_after_call h s c s' r : runner_after single h s -> runner_do single s c = (s', r) ->
    runner_after single ((c, r) :: h) s'.

(** ** SyncContext, calls from one thread *)

(** sync.py:121-134; [c_round]: spin_once is calling the callbacks. *)
Record sync := Sync {
  c_loop : bool;             (* _loop_cm, _loop are not None *)
  c_graph : bool;            (* _graph_context is not None *)
  c_requested : bool;        (* _shutdown_requested *)
  c_spinning : bool;
  c_closed : bool;
  c_round : bool;
  c_log : list effect
}.

Definition new_sync : sync := Sync false false false false false false [].

Inductive sync_call :=
| SEnter (ok : bool)         (* ok: GraphContext.__aenter__ does not raise *)
| SUse                       (* publisher, subscriber, connect, disconnect, sync, pause, resume *)
| SShutdown (exit_ok : bool) (* also __exit__ *)
| SSpin                      (* spin begins *)
| SRound                     (* spin_once begins; there are messages *)
| SRoundEnd                  (* the callbacks have been called; the messages are released *)
| SSpinEnd (exit_ok : bool). (* spin finds that shutdown has been requested, or is interrupted *)

Inductive sync_result := Ok | Error | Crash (* AttributeError: _loop is None *).

(** 354-356 *)
Definition started (s : sync) : bool := c_loop s && c_graph s.

(** 325-352 *)
Definition finalize (exit_ok : bool) (s : sync) : sync * sync_result :=
  if c_closed s then (s, Ok) else
  if c_loop s && c_graph s && negb exit_ok then
    (Sync (c_loop s) (c_graph s) (c_requested s) (c_spinning s) true (c_round s) (c_log s), Error)
  else
    (Sync false false (c_requested s) (c_spinning s) true (c_round s)
          ((if c_loop s then [LoopClosed] else []) ++ (if c_loop s && c_graph s then [GraphClosed] else []) ++ c_log s), Ok).

(** None: the call cannot be made now.  Calling spin or spin_once in a callback is left out. *)
Definition sync_do (s : sync) (c : sync_call) : option (sync * sync_result) :=
  match c with
  | SEnter ok =>
      (* 136-159 *)
      if c_closed s then Some (s, Error) else
      if c_loop s then Some (s, Ok) else
      if ok then Some (Sync true true (c_requested s) (c_spinning s) (c_closed s) (c_round s) (GraphOpened :: LoopOpened :: c_log s), Ok)
      else Some (Sync true false (c_requested s) (c_spinning s) (c_closed s) (c_round s) (LoopOpened :: c_log s), Error)
  | SUse => Some (s, if started s then Ok else Error)
  | SShutdown exit_ok =>
      (* 319-323 *)
      let s1 := Sync (c_loop s) (c_graph s) true (c_spinning s) (c_closed s) (c_round s) (c_log s) in
      if c_spinning s then Some (s1, Ok) else Some (finalize exit_ok s1)
  | SSpin =>
      (* 242-247 *)
      if c_spinning s || c_round s then None else
      if negb (started s) then Some (s, Error) else
      if c_requested s then Some (s, Ok) else
      Some (Sync (c_loop s) (c_graph s) (c_requested s) true (c_closed s) (c_round s) (c_log s), Ok)
  | SRound =>
      (* 258-290 *)
      if c_round s then None else
      if negb (started s) then Some (s, Error) else
      if c_requested s then Some (s, Ok) else
      Some (Sync (c_loop s) (c_graph s) (c_requested s) (c_spinning s) (c_closed s) true (c_log s), Ok)
  | SRoundEnd =>
      (* 296-316 *)
      if negb (c_round s) then None else
      Some (Sync (c_loop s) (c_graph s) (c_requested s) (c_spinning s) (c_closed s) false (c_log s),
            if c_loop s then Ok else Crash)
  | SSpinEnd exit_ok =>
      (* 248-256; an interrupt requests a shutdown first *)
      if negb (c_spinning s) || c_round s then None else
      let s1 := Sync (c_loop s) (c_graph s) true false (c_closed s) (c_round s) (c_log s) in
      Some (finalize exit_ok s1)
  end.

Inductive sync_after : list (sync_call * sync_result) -> sync -> Prop :=
| sync_after_new : sync_after [] new_sync
| sync_after_call h s c s' r : sync_after h s -> sync_do s c = Some (s', r) -> sync_after ((c, r) :: h) s'.

(** ** SyncContext, one thread in spin and others calling shutdown *)

(** The steps of shutdown, 319-323 and 325-328, 330-352. *)
Inductive stop_pc := Sset | Sread | Fread | Fset | Frelease | Sdone.

(** The steps of spin, 244-256. *)
Inductive spin_pc := Pread | Pset | Ploop | Pclear | Pcheck | PFread | PFset | PFrelease | Pdone.

Record shared := Shared {
  requested : bool;
  spinning : bool;
  closed : bool;
  releases : nat;            (* how often the loop and the graph context have been released *)
  spinner : spin_pc;
  stoppers : list stop_pc
}.

Definition stop_step (m : shared) (pc : stop_pc) : option (shared * stop_pc) :=
  match pc with
  | Sset => Some (Shared true (spinning m) (closed m) (releases m) (spinner m) (stoppers m), Sread)
  | Sread => Some (m, if spinning m then Sdone else Fread)
  | Fread => Some (m, if closed m then Sdone else Fset)
  | Fset => Some (Shared (requested m) (spinning m) true (releases m) (spinner m) (stoppers m), Frelease)
  | Frelease => Some (Shared (requested m) (spinning m) (closed m) (S (releases m)) (spinner m) (stoppers m), Sdone)
  | Sdone => None
  end.

Definition spin_step (m : shared) : option shared :=
  let go r sp c n pc := Some (Shared r sp c n pc (stoppers m)) in
  match spinner m with
  | Pread => go (requested m) (spinning m) (closed m) (releases m) (if requested m then Pdone else Pset)
  | Pset => go (requested m) true (closed m) (releases m) Ploop
  | Ploop => go (requested m) (spinning m) (closed m) (releases m) (if requested m then Pclear else Ploop)
  | Pclear => go (requested m) false (closed m) (releases m) Pcheck
  | Pcheck => go (requested m) (spinning m) (closed m) (releases m) (if requested m && negb (closed m) then PFread else Pdone)
  | PFread => go (requested m) (spinning m) (closed m) (releases m) (if closed m then Pdone else PFset)
  | PFset => go (requested m) (spinning m) true (releases m) PFrelease
  | PFrelease => go (requested m) (spinning m) (closed m) (S (releases m)) Pdone
  | Pdone => None
  end.

(** A step of some thread. *)
Inductive step : shared -> shared -> Prop :=
| step_spin m m' : spin_step m = Some m' -> step m m'
| step_stop m a pc b m' pc' : stoppers m = a ++ pc :: b -> stop_step m pc = Some (m', pc') ->
    step m (Shared (requested m') (spinning m') (closed m') (releases m') (spinner m') (a ++ pc' :: b)).

(** n threads call shutdown, one calls spin. *)
Inductive reachable (n : nat) : shared -> Prop :=
| reachable_start : reachable n (Shared false false false 0 Pread (repeat Sset n))
| reachable_step m m' : reachable n m -> step m m' -> reachable n m'.
