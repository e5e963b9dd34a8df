(* Specification for C94: what a trace of a subscriber should hold. *)
From Coq Require Import List Arith ZArith Bool.
From Verif Require Import SpanModel.
Import ListNotations.

Definition raises (m : msg) (t : nat) : bool := match w_out (m_does m t) with Raises => true | _ => false end.
Definition finishes (m : msg) (t : nat) : bool := match w_out (m_does m t) with Finishes => true | _ => false end.

(** The tasks that get message m: in order, up to the first one that raises. *)
Fixpoint called (m : msg) (ts : list nat) : list nat :=
  match ts with [] => [] | t :: ts => t :: (if raises m t then [] else called m ts) end.

(** The messages that are handled, with the tasks that get them: a task gets no more messages
    once it has finished, and none gets any once one has raised. *)
Fixpoint handled (ts : list nat) (ms : list msg) : list (msg * list nat) :=
  match ts, ms with
  | [], _ | _, [] => []
  | _, m :: ms =>
      (m, called m ts) ::
      (if existsb (raises m) ts then [] else handled (filter (fun t => negb (finishes m t)) ts) ms)
  end.

(** The time task t took for m, and the time m was held. *)
Definition span_of (m : msg) (t : nat) : sample :=
  let w := m_does m t in mkSample UserSpan (Some t) (w_end w - w_begin w) (Some (m_seq m)) (w_rec w).
Definition lease_of (m : msg) : sample :=
  mkSample LeaseTime None (m_rel m - m_recv m) (Some (m_seq m)) (m_rec m).

(** The samples of one message: one per task that got it, then one for the message unless a task raised. *)
Definition samples_of (c : control) (m : msg) (ts : list nat) : list sample :=
  (if c_span c then map (span_of m) ts else []) ++
  (if c_lease c && negb (existsb (raises m) ts) then [lease_of m] else []).

(** The samples of the messages number k, 2k, 3k, ... since tracing began. *)
Fixpoint every (k i : nat) (f : msg -> list nat -> list sample) (l : list (msg * list nat)) : list sample :=
  match l with
  | [] => []
  | (m, ts) :: l => (if S i mod k =? 0 then f m ts else []) ++ every k (S i) f l
  end.

Definition expected (c : control) (ts : list nat) (ms : list msg) : list sample :=
  every (Nat.max 1 (c_mod c)) 0 (samples_of c) (handled ts ms).

(** The newest n. *)
Definition newest (n : nat) (l : list sample) : list sample := skipn (length l - n) l.

(** The clock is positive, and no trace control arrives while a task runs. *)
Definition clock_ok (ms : list msg) : Prop := forall m t, In m ms -> (0 < w_begin (m_does m t))%Z.
Definition undisturbed (ms : list msg) : Prop := forall m t, In m ms -> w_ctl (m_does m t) = None.
