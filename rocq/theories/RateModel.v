(* Model of src/ezmsg/util/rate.py, Rate (16-84), and of TerminateOnTimeout
   (src/ezmsg/util/terminate.py:26-49).

   Times are rational numbers: the rounding of floating-point arithmetic is left out.  The clock,
   time.time(), is given by its readings, which may jump. *)

From Coq Require Import QArith Bool List.
Import ListNotations.
Open Scope Q_scope.

(** 21-28; sleep_dur = 1 / hz *)
Record rate := Rate { last_time : Q; sleep_dur : Q }.

Definition new_rate (now hz : Q) : rate := Rate now (1 / hz).

Definition Qltb (a b : Q) : bool := negb (Qle_bool b a).

(** 30-46 *)
Definition remaining_ (r : rate) (curr : Q) : rate * Q :=
  let last := if Qltb curr (last_time r) then curr else last_time r in
  (Rate last (sleep_dur r), sleep_dur r - (curr - last)).

(** 58-73 *)
Definition sleep_logic (r : rate) (curr : Q) : rate * Q :=
  let (r1, left) := remaining_ r curr in
  let last := last_time r1 + sleep_dur r1 in
  let last := if Qltb (sleep_dur r1 * 2) (curr - last) then curr else last in
  (Rate last (sleep_dur r1), if Qltb 0 left then left else 0).

(** A caller who calls sleep at the readings given, oldest first: the times at which it is woken,
    reading and sleep added, and the Rate in the end. *)
Fixpoint wakes (r : rate) (readings : list Q) : list Q * rate :=
  match readings with
  | [] => ([], r)
  | now :: rest => let (r', s) := sleep_logic r now in
                   let (ws, r'') := wakes r' rest in (now + s :: ws, r'')
  end.

(** ** TerminateOnTimeout *)

(** A message at a time, 34-37, or a poll at a time, 42-47. *)
Inductive timeout_event := Keepalive (now : Q) | Poll (now : Q).

(** last_msg_timestamp, and whether NormalTermination is raised. *)
Definition timeout_step (limit : Q) (last : option Q) (e : timeout_event) : option Q * bool :=
  match e with
  | Keepalive now => (Some now, false)
  | Poll now => (last, match last with Some t => Qle_bool limit (now - t) | None => false end)
  end.

Fixpoint timeout_run (limit : Q) (last : option Q) (es : list timeout_event) : option nat :=
  match es with
  | [] => None
  | e :: es => let (last', r) := timeout_step limit last e in
               if r then Some 1%nat else option_map S (timeout_run limit last' es)
  end.
