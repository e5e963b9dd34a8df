(* Vocabulary for C67 and C68. *)

From Coq Require Import List Bool Arith.
From Verif Require Import ProcModel.
Import ListNotations.

(** How many units of process j have been set up. *)
Fixpoint units_set_up (j : nat) (h : list event) : nat :=
  match h with
  | [] => 0
  | SetupUnit i :: h' => (if i =? j then 1 else 0) + units_set_up j h'
  | _ :: h' => units_set_up j h'
  end.

(** Process i does something of the user's: a coroutine, a thread function or a main function. *)
Definition active (s : system) (i : nat) : Prop :=
  running (procs s i) <> [] \/ in_threads (procs s i) <> 0 \/ in_main (procs s i) = true.

(** No process is killed or interrupted, and no main function fails. *)
Definition calm_event (e : event) : Prop :=
  match e with MainRaises _ | Interrupt _ | Crash _ => False | _ => True end.

(** Moreover setting up and shutting down do not fail. *)
Definition good_event (e : event) : Prop :=
  match e with MainRaises _ | Interrupt _ | Crash _ | SetupFails _ | ShutFails _ => False | _ => True end.

(** What happens sooner or later, provided setup(), shutdown() and cancelled coroutines come to an
    end. *)
Definition unavoidable (e : event) : Prop :=
  match e with
  | SetupUnit _ | SetupDone _ | ParticipantComes | PassStart _ | StartBroken _ | MonitorStarts _ | TaskCancelled _ _
  | AllDone _ | PassStop _ | ShutUnit _ | Finish _ => True
  | _ => False
  end.
