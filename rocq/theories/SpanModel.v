(* Model of what a unit's subscriber traces: lease times and the time each task takes.
     backendprocess.py:740-812   handle_subscriber
     subclient.py:262-340        recv, recv_zero_copy, begin_profile, end_profile
     profiling.py:144-217        begin_message, record_lease_time, record_user_span
     profiling.py:417-436        _apply_trace_control_to_subscriber

   Simplifications: times are integers (nanoseconds); every reading of the clock is part
   of the message's script; a control is what it amounts to for this subscriber (which
   endpoints and metrics it selects is C40's matter); reporting of metadata (on_message)
   and channel kinds are left out; a message of another publisher and a stale one are
   C16's matter. The set of callables is a list, in the order of iteration. *)

From Coq Require Import List Arith ZArith Bool.
Import ListNotations.

Inductive metric := LeaseTime | UserSpan.

(** graphmeta.py:321-329 — ProfilingTraceSample; [s_label] is the suffix of the topic. *)
Record sample := mkSample {
  s_metric : metric; s_label : option nat; s_value : Z; s_seq : option nat; s_time : Z
}.

(** What a trace control amounts to: every [c_mod]-th message, which of the two metrics. *)
Record control := mkControl { c_mod : nat; c_lease : bool; c_span : bool }.

(** profiling.py:126-142 — _SubscriberMetrics, with subclient.py:117-118 _active_msg_seq and
    _active_trace_sampled. *)
Record sub := mkSub {
  total : nat;                (* messages_received_total *)
  counter : nat;              (* _trace_counter *)
  modn : nat;                 (* trace_sample_mod *)
  lease_on : bool; span_on : bool;
  samples : list sample;      (* trace_samples, oldest first *)
  act : option nat;           (* _active_msg_seq *)
  smp : bool                  (* _active_trace_sampled *)
}.

(** profiling.py:417-436, 314-330 — a trace control arrives: samples are dropped, counting starts anew. *)
Definition apply (c : control) (s : sub) : sub :=
  mkSub (total s) 0 (Nat.max 1 (c_mod c)) (c_lease c) (c_span c) [] (act s) (smp s).

Definition new : sub := mkSub 0 0 1 false false [] None false.

(** deque(maxlen).append *)
Definition push (maxlen : nat) (l : list sample) (x : sample) : list sample :=
  skipn (length (l ++ [x]) - maxlen) (l ++ [x]).

Definition add (maxlen : nat) (s : sub) (x : sample) : sub :=
  mkSub (total s) (counter s) (modn s) (lease_on s) (span_on s) (push maxlen (samples s) x) (act s) (smp s).

(** profiling.py:144-153 — begin_message, and subclient.py:306-307. *)
Definition begin_message (s : sub) (q : nat) : sub :=
  if lease_on s || span_on s then
    mkSub (S (total s)) (S (counter s)) (modn s) (lease_on s) (span_on s) (samples s) (Some q)
      (S (counter s) mod Nat.max 1 (modn s) =? 0)
  else mkSub (S (total s)) (counter s) (modn s) (lease_on s) (span_on s) (samples s) (Some q) false.

(** subclient.py:322-324 — the finally clause. *)
Definition end_message (s : sub) : sub :=
  mkSub (total s) (counter s) (modn s) (lease_on s) (span_on s) (samples s) None false.

(** profiling.py:169-192 — record_lease_time; the last argument is the clock. *)
Definition record_lease (maxlen : nat) (s : sub) (lease : option Z) (q : nat) (now : Z) : sub :=
  match lease with
  | Some l => if lease_on s && smp s then add maxlen s (mkSample LeaseTime None l (Some q) now) else s
  | None => s
  end.

(** subclient.py:326-329 — begin_profile. *)
Definition begin_profile (s : sub) (now : Z) : Z :=
  if negb (span_on s) || negb (smp s) then 0%Z else now.

(** subclient.py:331-340 and profiling.py:194-217 — end_profile, record_user_span. *)
Definition end_profile (maxlen : nat) (s : sub) (start : Z) (label : nat) (now rec : Z) : sub :=
  if (start <=? 0)%Z then s
  else if negb (span_on s) || negb (smp s) then s
  else add maxlen s (mkSample UserSpan (Some label) (now - start)%Z (act s) rec).

(** What a task does with a message. *)
Inductive outcome := Returns | Finishes (* Complete or NormalTermination *) | Raises.

(** One call of a task: the clock before and after it and when its span is recorded, how it
    ends, and the trace control that arrives while it runs, if one does. *)
Record work := mkWork { w_begin : Z; w_end : Z; w_rec : Z; w_out : outcome; w_ctl : option control }.

(** A message: its number, the clock when it is received, released, and when that is recorded,
    and what each task does with it. *)
Record msg := mkMsg { m_seq : nat; m_recv : Z; m_rel : Z; m_rec : Z; m_does : nat -> work }.

(** backendprocess.py:790-801 — the loop over the tasks: those that finished, and whether one raised. *)
Fixpoint calls (maxlen : nat) (s : sub) (m : msg) (l : list nat) : sub * list nat * bool :=
  match l with
  | [] => (s, [], false)
  | t :: l =>
      let w := m_does m t in
      let start := begin_profile s (w_begin w) in
      let s := match w_ctl w with Some c => apply c s | None => s end in
      let s := end_profile maxlen s start t (w_end w) (w_rec w) in
      match w_out w with
      | Raises => (s, [], true)
      | Finishes => let '(s, done, bad) := calls maxlen s m l in (s, t :: done, bad)
      | Returns => calls maxlen s m l
      end
  end.

Definition lease_ns (on : bool) (m : msg) : option Z := if on then Some (m_rel m - m_recv m)%Z else None.

(** backendprocess.py:781-805 with subclient.py:279-324: one turn of the loop. [leaky]: recv() has
    copied, released and finished with the message before the tasks see it (subclient.py:262-274,
    backendprocess.py:764-770). *)
Definition turn (maxlen : nat) (leaky : bool) (s : sub) (ts : list nat) (m : msg) : sub * list nat * bool :=
  let s := begin_message s (m_seq m) in
  let on := lease_on s in
  if leaky then
    let s := end_message (record_lease maxlen s (lease_ns on m) (m_seq m) (m_rec m)) in
    calls maxlen s m ts
  else
    let '(s, done, bad) := calls maxlen s m ts in
    if bad then (end_message s, done, true)
    else (end_message (record_lease maxlen s (lease_ns on m) (m_seq m) (m_rec m)), done, false).

(** backendprocess.py:775-808 — handle_subscriber on the messages that come. *)
Fixpoint serve (maxlen : nat) (leaky : bool) (s : sub) (ts : list nat) (ms : list msg) : sub :=
  match ts, ms with
  | [], _ | _, [] => s
  | _, m :: ms =>
      let '(s, done, bad) := turn maxlen leaky s ts m in
      if bad then s else serve maxlen leaky s (filter (fun t => negb (existsb (Nat.eqb t) done)) ts) ms
  end.
