(* What is promised of requests to processes. *)

From Coq Require Import List Arith Bool.
From Verif Require Import RouteModel.
Import ListNotations.

(** Task [i] has come to an end, with this outcome. *)
Definition ended (s : st) (i : nat) (o : outcome) : Prop := exists t, nth_error (tasks s) i = Some t /\ at_ t = Done o.
Definition is_task (s : st) (i : nat) (k : kind) : Prop := exists t, nth_error (tasks s) i = Some t /\ knd t = k.

(** What the server does by itself. *)
Definition own (a : label) : bool :=
  match a with Enter _ | Write _ | Drained _ | Expire _ | Take _ | Notice _ => true | _ => false end.
Definition is_tick (a : label) : bool := match a with Tick => true | _ => false end.
Definition how_many (f : label -> bool) (l : list label) : nat := length (filter f l).

(** The process is connected. *)
Definition live (s : st) (p : nat) : Prop := exists x, nth_error (procs s) p = Some x /\ gone x = false.

(** What task [t] has still to write to process [p]. *)
Definition to_write (p : nat) (t : task) : nat :=
  match knd t, at_ t with
  | Route q z _, (WantLock | WantWrite) => if q =? p then z else 0
  | Rep q z, (WantLock | WantWrite) => if q =? p then z else 0
  | _, _ => 0
  end.
Definition outstanding (s : st) (p : nat) : nat := fold_right (fun t n => to_write p t + n) 0 (tasks s).

(** Nobody waits for process [p] to read, and all that is to be written to it fits in its buffer. *)
Definition calm (high : nat) (s : st) (p : nat) : Prop :=
  (forall x, nth_error (procs s) p = Some x -> buf x + outstanding s p <= high) /\
  forall i t, nth_error (tasks s) i = Some t -> at_ t = Draining -> target t <> p.

(** Somebody asks the server for something; a process connects. *)
Definition asks (a : label) : bool := match a with Ask _ | Respond _ _ _ | Report _ _ => true | _ => false end.
Definition joins (a : label) : bool := match a with NewProc => true | _ => false end.

(** What entitles the server to end request [i], to process [p] with a time-out of [d], like this. *)
Definition justified (l : list label) (i p d : nat) (o : outcome) : Prop :=
  match o with
  | Answered v => In (Respond p i v) l
  | Invalid q => q <> p /\ exists v, In (Respond q i v) l
  | Disconnected | WriteFailed => In (Kill p) l
  | TimedOut => exists l1 a l2, l = l1 ++ a :: l2 /\ (a = Write i \/ a = Drained i) /\ d <= how_many is_tick l2
  | Unroutable => In (Kill p) l \/ exists l1 l2, l = l1 ++ Enter i :: l2 /\ how_many joins l1 <= p
  | Ok => False
  end.

(** What the server and the processes that read do by themselves. *)
Definition allowed (reads : nat -> bool) (a : label) : Prop := own a = true \/ a = Tick \/ exists p n, a = Read p n /\ reads p = true.

Definition all_ended (s : st) : Prop := forall i, i < length (tasks s) -> exists o, ended s i o.
