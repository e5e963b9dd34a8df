(* Model of the profiling registry of a process, profiling.py:
     33-122   _PublisherMetrics,   126-233  _SubscriberMetrics,
     236-442  ProfileRegistry.

   Every operation that looks at the clock takes the time it sees, [now], in
   nanoseconds.

   Simplifications: times and values are natural numbers (the code converts them to
   float); rates, in-flight counts, channel kinds and the process's pid and host
   are left out; an endpoint is known by its id (its endpoint_id, "topic:id", is
   unique because ids are); heapq is a list from which the least entry is
   taken. *)

From Coq Require Import String List Arith Bool.
From Verif Require Import Dict.
Import ListNotations.

(** The four metric names. *)
Inductive mname := publish_delta_ns | backpressure_wait_ns | lease_time_ns | user_span_ns.
#[global] Instance dec_mname : Dec mname.
Proof. intros x y; decide equality. Defined.

(** graphmeta.py:321-329 — ProfilingTraceSample. *)
Record sample := mkSample {
  s_time : nat; s_endpoint : nat; s_metric : mname; s_value : nat; s_seq : option nat
}.

(** graphmeta.py:309-318 — ProfilingTraceControl; [c_ttl] in nanoseconds. *)
Record control := mkControl {
  c_enabled : bool; c_mod : nat;
  c_pub_topics : list string; c_sub_topics : list string;    (* [] also stands for None *)
  c_pub_ids : list nat; c_sub_ids : list nat;
  c_metrics : option (list mname); c_ttl : option nat
}.

Definition disabled : control := mkControl false 1 [] [] [] [] None None.

(** _PublisherMetrics and _SubscriberMetrics.  [m_one] is _trace_publish_delta_enabled or
    _trace_lease_time_enabled, [m_two] is _trace_backpressure_wait_enabled or _trace_user_span_enabled. *)
Record metrics := mkMetrics {
  m_topic : string;
  m_total : nat;              (* messages_published_total / messages_received_total *)
  m_last : nat;               (* _last_snapshot_total *)
  m_mod : nat;                (* trace_sample_mod *)
  m_count : nat;              (* _trace_counter *)
  m_ts : option nat;          (* _last_publish_ts_ns *)
  m_one : bool;
  m_two : bool;
  m_samples : list sample     (* trace_samples *)
}.

Record registry := mkRegistry {
  r_pubs : list (nat * metrics);
  r_subs : list (nat * metrics);
  r_control : control;                (* _default_trace_control *)
  r_expires : option nat;             (* _trace_control_expires_ns *)
  r_last : option nat                 (* _last_snapshot_ts_ns *)
}.

Definition new_registry : registry := mkRegistry [] [] disabled None None.

Section Profiling.
Context (maxlen : nat).               (* TRACE_MAX_SAMPLES, profiling.py:22 *)

(** deque(maxlen).append: the oldest samples are dropped. *)
Definition push (l : list sample) (x : sample) : list sample :=
  skipn (length (l ++ [x]) - maxlen) (l ++ [x]).

(** 48-73 — record_publish. *)
Definition record_publish (id : nat) (m : metrics) (seq : option nat) (now : nat) : metrics :=
  let m := mkMetrics (m_topic m) (S (m_total m)) (m_last m) (m_mod m) (m_count m) (m_ts m) (m_one m) (m_two m) (m_samples m) in
  if m_one m then
    let m := mkMetrics (m_topic m) (m_total m) (m_last m) (m_mod m) (S (m_count m)) (m_ts m) (m_one m) (m_two m) (m_samples m) in
    if m_count m mod Nat.max 1 (m_mod m) =? 0 then
      let delta := match m_ts m with None => 0 | Some t => now - t end in
      mkMetrics (m_topic m) (m_total m) (m_last m) (m_mod m) (m_count m) (Some now) (m_one m) (m_two m)
        (push (m_samples m) (mkSample now id publish_delta_ns delta seq))
    else m
  else m.

(** 75-90 — record_backpressure_wait. *)
Definition record_backpressure_wait (id : nat) (m : metrics) (wait : nat) (seq : option nat) (now : nat) : metrics :=
  if m_two m then
    mkMetrics (m_topic m) (m_total m) (m_last m) (m_mod m) (m_count m) (m_ts m) (m_one m) (m_two m)
      (push (m_samples m) (mkSample now id backpressure_wait_ns wait seq))
  else m.

(** 144-153 — begin_message: counts the message and says whether it is sampled. *)
Definition begin_message (m : metrics) : metrics * bool :=
  let m := mkMetrics (m_topic m) (S (m_total m)) (m_last m) (m_mod m) (m_count m) (m_ts m) (m_one m) (m_two m) (m_samples m) in
  if m_one m || m_two m then
    let m := mkMetrics (m_topic m) (m_total m) (m_last m) (m_mod m) (S (m_count m)) (m_ts m) (m_one m) (m_two m) (m_samples m) in
    (m, m_count m mod Nat.max 1 (m_mod m) =? 0)
  else (m, false).

(** 169-192 — record_lease_time. *)
Definition record_lease_time (id : nat) (m : metrics) (lease : option nat) (seq : option nat) (sampled : bool) (now : nat) : metrics :=
  match lease with
  | Some l =>
      if m_one m && sampled then
        mkMetrics (m_topic m) (m_total m) (m_last m) (m_mod m) (m_count m) (m_ts m) (m_one m) (m_two m)
          (push (m_samples m) (mkSample now id lease_time_ns l seq))
      else m
  | None => m
  end.

(** 194-217 — record_user_span. *)
Definition record_user_span (id : nat) (m : metrics) (span : nat) (seq : option nat) (sampled : bool) (now : nat) : metrics :=
  if m_two m && sampled then
    mkMetrics (m_topic m) (m_total m) (m_last m) (m_mod m) (m_count m) (m_ts m) (m_one m) (m_two m)
      (push (m_samples m) (mkSample now id user_span_ns span seq))
  else m.

(** 92-122, 219-233 — snapshot: the endpoint's total and window counts. *)
Definition snapshot_metrics (has_previous : bool) (m : metrics) : metrics * (nat * nat) :=
  let window := if has_previous then m_total m - m_last m else 0 in
  (mkMetrics (m_topic m) (m_total m) (m_total m) (m_mod m) (m_count m) (m_ts m) (m_one m) (m_two m) (m_samples m),
   (m_total m, window)).

(** 396-436 — _apply_trace_control_to_publisher / _to_subscriber. *)
Definition selected (topics : list string) (ids : list nat) (id : nat) (topic : string) : bool :=
  (match topics with [] => true | _ => mem topic topics end) &&
  (match ids with [] => true | _ => mem id ids end).

Definition wants (c : control) (n : mname) : bool :=
  match c_metrics c with None => true | Some l => mem n l end.

Definition apply_to_publisher (c : control) (id : nat) (m : metrics) : metrics :=
  let enabled := c_enabled c && selected (c_pub_topics c) (c_pub_ids c) id (m_topic m) in
  mkMetrics (m_topic m) (m_total m) (m_last m) (Nat.max 1 (c_mod c)) 0 None
    (enabled && wants c publish_delta_ns) (enabled && wants c backpressure_wait_ns) (m_samples m).

Definition apply_to_subscriber (c : control) (id : nat) (m : metrics) : metrics :=
  let enabled := c_enabled c && selected (c_sub_topics c) (c_sub_ids c) id (m_topic m) in
  mkMetrics (m_topic m) (m_total m) (m_last m) (Nat.max 1 (c_mod c)) 0 (m_ts m)
    (enabled && wants c lease_time_ns) (enabled && wants c user_span_ns) (m_samples m).

Definition new_metrics (topic : string) : metrics := mkMetrics topic 0 0 1 0 None false false [].

Definition clear_samples (m : metrics) : metrics :=
  mkMetrics (m_topic m) (m_total m) (m_last m) (m_mod m) (m_count m) (m_ts m) (m_one m) (m_two m) [].

Definition map_values {V W : Type} (f : nat -> V -> W) (d : list (nat * V)) : list (nat * W) :=
  map (fun p => (fst p, f (fst p) (snd p))) d.

(** 314-330 — set_trace_control. *)
Definition set_trace_control (c : control) (now : nat) (r : registry) : registry :=
  mkRegistry
    (map_values (fun id m => apply_to_publisher c id (clear_samples m)) (r_pubs r))
    (map_values (fun id m => apply_to_subscriber c id (clear_samples m)) (r_subs r))
    c
    (if c_enabled c then match c_ttl c with Some t => Some (now + t) | None => None end else None)
    (r_last r).

(** 380-388 — _expire_trace_control_if_needed. *)
Definition expire (now : nat) (r : registry) : registry :=
  match r_expires r with
  | None => r
  | Some t => if now <? t then r else set_trace_control disabled now r
  end.

(** The heap's entries: (timestamp, seq or -1, index of the queue), compared in that order. *)
Notation entry := (nat * option nat * nat)%type.

Definition seq_lt (a b : option nat) : bool :=
  match a, b with
  | None, Some _ => true
  | Some x, Some y => x <? y
  | _, None => false
  end.

Definition entry_lt (a b : entry) : bool :=
  match a, b with
  | (t, s, i), (t', s', i') =>
      (t <? t') || ((t =? t') && (seq_lt s s' || (negb (seq_lt s' s) && (i <? i'))))
  end.

(** heapq.heappop: the least entry and the others. *)
Fixpoint heappop (h : list entry) : option (entry * list entry) :=
  match h with
  | [] => None
  | e :: r =>
      match heappop r with
      | None => Some (e, [])
      | Some (e', r') => if entry_lt e' e then Some (e', e :: r') else Some (e, r)
      end
  end.

Fixpoint set_nth {A : Type} (i : nat) (x : A) (l : list A) : list A :=
  match l, i with
  | [], _ => []
  | _ :: r, 0 => x :: r
  | y :: r, S i => y :: set_nth i x r
  end.

(** 354-366 — the merging loop; [n] is the number of samples still wanted.  Every entry of the heap
    is the head of its queue. *)
Fixpoint merge (n : nat) (heap : list entry) (qs : list (list sample)) : list sample * list (list sample) :=
  match n with
  | 0 => ([], qs)
  | S n =>
      match heappop heap with
      | None => ([], qs)
      | Some ((_, _, i), rest) =>
          match nth i qs [] with
          | [] => merge n rest qs
          | x :: q =>
              let heap' := match q with
                           | y :: _ => rest ++ [(s_time y, s_seq y, i)]
                           | [] => rest
                           end in
              let (out, qs') := merge n heap' (set_nth i q qs) in (x :: out, qs')
          end
      end
  end.

Definition heads (qs : list (list sample)) : list entry :=
  flat_map (fun p => match snd p with x :: _ => [(s_time x, s_seq x, fst p)] | [] => [] end)
           (combine (seq 0 (length qs)) qs).

(** 341-366 — the samples of a batch, and what is left in the queues.  (With a single queue the
    code takes its first samples directly, which is what the loop does.) *)
Definition take_samples (limit : nat) (qs : list (list sample)) : list sample * list (list sample) :=
  match filter (fun q => match q with [] => false | _ => true end) qs with
  | [q] => (firstn limit q, map (fun q => match q with [] => [] | _ => skipn limit q end) qs)
  | _ => merge limit (heads qs) qs
  end.

Definition set_samples (m : metrics) (q : list sample) : metrics :=
  mkMetrics (m_topic m) (m_total m) (m_last m) (m_mod m) (m_count m) (m_ts m) (m_one m) (m_two m) q.

(** 332-374 — trace_batch. *)
Definition trace_batch (max_samples : nat) (now : nat) (r : registry) : registry * list sample :=
  let r := expire now r in
  let qs := map (fun p => m_samples (snd p)) (r_pubs r) ++ map (fun p => m_samples (snd p)) (r_subs r) in
  let (out, qs') := take_samples (Nat.max 1 max_samples) qs in
  let np := length (r_pubs r) in
  (mkRegistry
     (map (fun pq => (fst (fst pq), set_samples (snd (fst pq)) (snd pq))) (combine (r_pubs r) (firstn np qs')))
     (map (fun pq => (fst (fst pq), set_samples (snd (fst pq)) (snd pq))) (combine (r_subs r) (skipn np qs')))
     (r_control r) (r_expires r) (r_last r),
   out).

(** 281-312 — snapshot: (total, window) of every publisher and every subscriber. *)
Definition snapshot (now : nat) (r : registry) : registry * (list (nat * (nat * nat)) * list (nat * (nat * nat))) :=
  let has := match r_last r with Some _ => true | None => false end in
  (mkRegistry
     (map_values (fun _ m => fst (snapshot_metrics has m)) (r_pubs r))
     (map_values (fun _ m => fst (snapshot_metrics has m)) (r_subs r))
     (r_control r) (r_expires r) (Some now),
   (map_values (fun _ m => snd (snapshot_metrics has m)) (r_pubs r),
    map_values (fun _ m => snd (snapshot_metrics has m)) (r_subs r))).

(** What happens to the registry.  An endpoint that is not registered keeps a
    metrics object of its own, which the registry does not see. *)
Inductive op :=
| RegPub (id : nat) (topic : string)      (* 255-264 *)
| UnregPub (id : nat)                     (* 266-267 *)
| RegSub (id : nat) (topic : string)      (* 269-276 *)
| UnregSub (id : nat)                     (* 278-279 *)
| Publish (id : nat) (seq : option nat) (now : nat)
| Wait (id wait : nat) (seq : option nat) (now : nat)
| Begin (id : nat)
| Lease (id : nat) (lease : option nat) (seq : option nat) (sampled : bool) (now : nat)
| Span (id span : nat) (seq : option nat) (sampled : bool) (now : nat)
| Snapshot (now : nat)
| Control (c : control) (now : nat)
| Batch (max_samples now : nat)
| Enabled (now : nat)                     (* 376-378, trace_enabled *)
| SetProcess (reset : bool).              (* 246-253 *)

Definition on (id : nat) (f : metrics -> metrics) (d : list (nat * metrics)) : list (nat * metrics) :=
  match get id d with Some m => put id (f m) d | None => d end.

Definition set_pubs d (r : registry) := mkRegistry d (r_subs r) (r_control r) (r_expires r) (r_last r).
Definition set_subs d (r : registry) := mkRegistry (r_pubs r) d (r_control r) (r_expires r) (r_last r).

Definition pstep (r : registry) (o : op) : registry :=
  match o with
  | RegPub id topic => set_pubs (put id (apply_to_publisher (r_control r) id (new_metrics topic)) (r_pubs r)) r
  | UnregPub id => set_pubs (del id (r_pubs r)) r
  | RegSub id topic => set_subs (put id (apply_to_subscriber (r_control r) id (new_metrics topic)) (r_subs r)) r
  | UnregSub id => set_subs (del id (r_subs r)) r
  | Publish id seq now => set_pubs (on id (fun m => record_publish id m seq now) (r_pubs r)) r
  | Wait id w seq now => set_pubs (on id (fun m => record_backpressure_wait id m w seq now) (r_pubs r)) r
  | Begin id => set_subs (on id (fun m => fst (begin_message m)) (r_subs r)) r
  | Lease id l seq sm now => set_subs (on id (fun m => record_lease_time id m l seq sm now) (r_subs r)) r
  | Span id s seq sm now => set_subs (on id (fun m => record_user_span id m s seq sm now) (r_subs r)) r
  | Snapshot now => fst (snapshot now r)
  | Control c now => set_trace_control c now r
  | Batch n now => fst (trace_batch n now r)
  | Enabled now => expire now r
  | SetProcess reset =>
      if reset then mkRegistry [] [] disabled None None
      else mkRegistry (r_pubs r) (r_subs r) (r_control r) (r_expires r) None
  end.

Definition prun (ops : list op) : registry := fold_left pstep ops new_registry.

End Profiling.
