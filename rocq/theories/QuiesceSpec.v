(* What pause(), sync() and resume() are for. *)

From Coq Require Import List Arith Bool.
From Verif Require Import Dict QuiesceModel.
Import ListNotations.

(** A pipeline: publishers and tasks are listed once, sources and outputs are
    publishers of it, and every publisher has a buffer. *)
Definition pipeline (cfg : config) : Prop :=
  NoDup (c_pubs cfg) /\ NoDup (c_tasks cfg) /\
  (forall t p, In t (c_tasks cfg) -> c_src cfg t = Some p -> In p (c_pubs cfg)) /\
  (forall t q, In t (c_tasks cfg) -> In q (c_outs cfg t) -> In q (c_pubs cfg)) /\
  (forall p, In p (c_pubs cfg) -> 1 <= c_bufs cfg p).

(** [q] was registered after [p]. *)
Definition before (p q : nat) (l : list nat) : Prop := exists a b, l = a ++ p :: b /\ In q b.
(** Every task's outputs were registered after its source (in particular, no cycles). *)
Definition upstream_first (cfg : config) : Prop :=
  forall t p q, In t (c_tasks cfg) -> c_src cfg t = Some p -> In q (c_outs cfg t) -> before p q (c_pubs cfg).

(** A message of [p] is on its way: published and not released by every subscriber. *)
Definition in_flight (s : state) (p : nat) : Prop := exists m t, In (p, m, t) (s_held s).
(** A broadcast on [p] has passed the gate and waits for a buffer. *)
Definition waits_on (s : state) (t p : nat) : Prop := exists m todo, s_task s t = Busy m (p :: todo) true.
(** Nothing moves: every publisher is paused, no message is on its way, no task is handling one
    or has one to take. *)
Definition quiet (cfg : config) (s : state) : Prop :=
  (forall p, In p (c_pubs cfg) -> s_run s p = false /\ ~ in_flight s p) /\
  (forall t p, In t (c_tasks cfg) -> c_src cfg t = Some p -> s_queue s t = [] /\ s_task s t = Idle).

(** A state and the step taken in it satisfy [P], throughout a run. *)
Fixpoint throughout (cfg : config) (P : state -> label -> Prop) (s : state) (ls : list label) : Prop :=
  match ls with
  | [] => True
  | l :: r => P s l /\ forall s', step cfg s l = Some s' -> throughout cfg P s' r
  end.

(** The server takes up a resume(); a publisher is resumed by itself. *)
Definition resumes (s : state) (l : label) : Prop :=
  match l with Serve i => get i (s_calls s) = Some RESUME | LocalResume _ => True | _ => False end.
(** A publisher reads SYNC while a broadcast on it waits for a buffer. *)
Definition interrupts (s : state) (l : label) : Prop :=
  match l with Hear p => (exists r, s_inbox s p = SYNC :: r) /\ exists t, waits_on s t p | _ => False end.
(** The server takes up a sync() while a publisher is, or is about to be, paused. *)
Definition syncs_paused (cfg : config) (s : state) (l : label) : Prop :=
  match l with
  | Serve i => get i (s_calls s) = Some SYNC /\ exists p, In p (c_pubs cfg) /\ (s_run s p = false \/ s_inbox s p <> [])
  | _ => False
  end.
Definition local_pause (l : label) : Prop := match l with LocalPause _ => True | _ => False end.

(** The server takes up a pause() or a sync(); a publisher is paused by itself. *)
Definition stops (s : state) (l : label) : Prop :=
  match l with Serve i => get i (s_calls s) = Some PAUSE \/ get i (s_calls s) = Some SYNC | LocalPause _ => True | _ => False end.

Definition by_itself (l : label) : bool :=
  match l with Begin _ | Call _ | LocalPause _ | LocalResume _ => false | _ => true end.
Definition at_rest (cfg : config) (s : state) : Prop := forall l, by_itself l = true -> step cfg s l = None.

(** Call [i] waits for the server. *)
Definition pending (s : state) (i : nat) : Prop := get i (s_calls s) <> None \/ exists rest cur, s_lock s = Some (i, rest, cur).

(** How often task [t] has been started by the program. *)
Definition begun (ls : list label) (t : nat) : nat := length (filter (fun l => match l with Begin u => u =? t | _ => false end) ls).
(** What task [t] has been given: the messages of its source, or the times it was started. *)
Definition given (cfg : config) (s : state) (ls : list label) (t : nat) : nat :=
  match c_src cfg t with Some p => s_sent s p | None => begun ls t end.
Definition total (f : nat -> nat) (l : list nat) : nat := fold_right (fun x n => f x + n) 0 l.
