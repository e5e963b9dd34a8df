(* Model of src/ezmsg/util/messagegate.py, MessageGate (41-94).

   The handlers of the two inputs run concurrently: a handler runs to its next await at once.  The
   only await is the yield in on_input, which publishes the message; gate commands may be handled
   before it returns.  Messages arrive one at a time: the next is handled when on_input has ended. *)

From Coq Require Import List ZArith Bool.
Import ListNotations.
Open Scope Z_scope.

(** 22-37 *)
Record settings := Settings { start_open : bool; default_open : bool; default_after : option Z }.

Section Gate.
Context {M : Type}.

(** 35-37, with what has been published (newest first), and whether on_input is publishing. *)
Record gate := Gate { gate_open : bool; msgs : Z; sent : list M; publishing : bool }.

(** 63-64 *)
Definition initialize (c : settings) : gate := Gate (start_open c) 0 [] false.

(** 66-75 *)
Definition set_gate (b : bool) (g : gate) : gate :=
  if Bool.eqb (gate_open g) b then g else Gate b 0 (sent g) (publishing g).

(** 89-94: what on_input does after publishing. *)
Definition revert (c : settings) (g : gate) : gate :=
  match default_after c with
  | Some n =>
      if negb (Bool.eqb (gate_open g) (default_open c)) && (n <=? msgs g) then set_gate (default_open c) g else g
  | None => g
  end.

Inductive event :=
| Command (b : bool)     (* 77-79 on_gate *)
| Arrive (m : M)         (* 81-87 on_input, until it publishes or ends *)
| Published.             (* 88-94 on_input goes on *)

(** None: the event cannot happen now. *)
Definition step (c : settings) (g : gate) (e : event) : option gate :=
  match e with
  | Command b => Some (set_gate b g)
  | Arrive m =>
      if publishing g then None
      else if gate_open g then Some (Gate true (msgs g + 1) (m :: sent g) true)
      else Some (revert c (Gate false (msgs g + 1) (sent g) false))
  | Published =>
      if publishing g then Some (revert c (Gate (gate_open g) (msgs g) (sent g) false)) else None
  end.

(** Histories, newest event first. *)
Inductive after (c : settings) : list event -> gate -> Prop :=
| after_start : after c [] (initialize c)
| after_event h g e g' : after c h g -> step c g e = Some g' -> after c (e :: h) g'.
End Gate.
Arguments gate : clear implicits.
Arguments event : clear implicits.
