(* Specification for profiling (C40, C41), in terms of the history of calls made
   on a process's profiling registry.  Histories are listed newest call first. *)

From Coq Require Import String List Arith Bool Lia.
From Verif Require Import Dict ProfilingModel.
Import ListNotations.

(** The registry after a history. *)
Definition after (maxlen : nat) (h : list op) : registry := prun maxlen (rev h).

(** An endpoint is a publisher or a subscriber, with an id. *)
Inductive side := Pub | Sub.

Definition registers (s : side) (id : nat) (o : op) : option string :=
  match s, o with
  | Pub, RegPub i t => if i =? id then Some t else None
  | Sub, RegSub i t => if i =? id then Some t else None
  | _, _ => None
  end.

Definition removes (s : side) (id : nat) (o : op) : bool :=
  match s, o with
  | Pub, UnregPub i => i =? id
  | Sub, UnregSub i => i =? id
  | _, SetProcess true => true
  | _, _ => false
  end.

(** The endpoint's events: a message published, a message received. *)
Definition is_event (s : side) (id : nat) (o : op) : bool :=
  match s, o with
  | Pub, Publish i _ _ => i =? id
  | Sub, Begin i => i =? id
  | _, _ => false
  end.

(** The topic under which the endpoint is registered, if it is. *)
Fixpoint registered (s : side) (id : nat) (h : list op) : option string :=
  match h with
  | [] => None
  | o :: h =>
      match registers s id o with
      | Some t => Some t
      | None => if removes s id o then None else registered s id h
      end
  end.

(** Events since the endpoint was registered. *)
Fixpoint total (s : side) (id : nat) (h : list op) : nat :=
  match h with
  | [] => 0
  | o :: h =>
      match registers s id o with
      | Some _ => 0
      | None => (if is_event s id o then 1 else 0) + total s id h
      end
  end.

(** Events since the last snapshot, or since the endpoint was registered if that
    came later. *)
Fixpoint recent (s : side) (id : nat) (h : list op) : nat :=
  match h with
  | [] => 0
  | Snapshot _ :: _ => 0
  | o :: h =>
      match registers s id o with
      | Some _ => 0
      | None => (if is_event s id o then 1 else 0) + recent s id h
      end
  end.

(** Has a snapshot been taken since the process was last given its id? *)
Fixpoint snapshot_taken (h : list op) : bool :=
  match h with
  | [] => false
  | Snapshot _ :: _ => true
  | SetProcess _ :: _ => false
  | _ :: h => snapshot_taken h
  end.

(** ** Tracing *)

Definition expired (e : option nat) (now : nat) : bool :=
  match e with Some t => t <=? now | None => false end.

(** The trace control in force and the time at which it expires (which is noticed
    when a batch is asked for, or when someone asks whether tracing is on). *)
Fixpoint in_force (h : list op) : control * option nat :=
  match h with
  | [] => (disabled, None)
  | Control c now :: _ =>
      (c, if c_enabled c then option_map (fun ttl => now + ttl) (c_ttl c) else None)
  | SetProcess true :: _ => (disabled, None)
  | Batch _ now :: h | Enabled now :: h =>
      if expired (snd (in_force h)) now then (disabled, None) else in_force h
  | _ :: h => in_force h
  end.

(** Does this call start the endpoint's tracing afresh? *)
Definition restarts (s : side) (id : nat) (h : list op) (o : op) : bool :=
  match registers s id o with
  | Some _ => true
  | None =>
      match o with
      | Control _ _ => true
      | SetProcess true => true
      | Batch _ now | Enabled now => expired (snd (in_force h)) now
      | _ => false
      end
  end.

(** The number of the endpoint's events since then. *)
Fixpoint ordinal (s : side) (id : nat) (h : list op) : nat :=
  match h with
  | [] => 0
  | o :: h =>
      if restarts s id h o then 0
      else (if is_event s id o then 1 else 0) + ordinal s id h
  end.

(** One of every how many events is traced. *)
Definition rate (h : list op) : nat := Nat.max 1 (c_mod (fst (in_force h))).

(** The time of the last publication, since then, whose number is a multiple of the rate. *)
Fixpoint last_traced (id : nat) (h : list op) : option nat :=
  match h with
  | [] => None
  | o :: h =>
      if restarts Pub id h o then None
      else match o with
           | Publish i _ now =>
               if (i =? id) && (S (ordinal Pub id h) mod rate h =? 0) then Some now else last_traced id h
           | _ => last_traced id h
           end
  end.

(** Is this metric of this endpoint traced by a control?  Empty filters let everything
    through. *)
Definition traces (c : control) (s : side) (id : nat) (topic : string) (n : mname) : Prop :=
  c_enabled c = true /\
  let topics := match s with Pub => c_pub_topics c | Sub => c_sub_topics c end in
  let ids := match s with Pub => c_pub_ids c | Sub => c_sub_ids c end in
  (topics = [] \/ In topic topics) /\
  (ids = [] \/ In id ids) /\
  (forall l, c_metrics c = Some l -> In n l).

(** ** What is buffered *)

Definition endpoints (s : side) (r : registry) : list (nat * metrics) :=
  match s with Pub => r_pubs r | Sub => r_subs r end.

(** The samples buffered for an endpoint, oldest first. *)
Definition queue (s : side) (id : nat) (r : registry) : list sample :=
  match get id (endpoints s r) with Some m => m_samples m | None => [] end.

(** All buffered samples. *)
Definition buffered (r : registry) : list sample :=
  flat_map (fun p => m_samples (snd p)) (r_pubs r) ++ flat_map (fun p => m_samples (snd p)) (r_subs r).

(** Which endpoint a sample is of. *)
Definition of_side (n : mname) : side :=
  match n with publish_delta_ns | backpressure_wait_ns => Pub | lease_time_ns | user_span_ns => Sub end.

Definition sample_of (s : side) (id : nat) (x : sample) : bool :=
  (s_endpoint x =? id) && match s, of_side (s_metric x) with Pub, Pub | Sub, Sub => true | _, _ => false end.

(** The clock reading a call makes, if it makes one. *)
Definition reading (o : op) : option nat :=
  match o with
  | Publish _ _ now | Wait _ _ _ now | Lease _ _ _ _ now | Span _ _ _ _ now
  | Snapshot now | Control _ now | Batch _ now | Enabled now => Some now
  | _ => None
  end.

(** The clock never goes back. *)
Fixpoint monotone (h : list op) (now : nat) : Prop :=
  match h with
  | [] => True
  | o :: h => match reading o with Some t => t <= now /\ monotone h t | None => monotone h now end
  end.

(** In time order. *)
Fixpoint in_time_order (l : list sample) : Prop :=
  match l with
  | [] => True
  | x :: r => (forall y, In y r -> s_time x <= s_time y) /\ in_time_order r
  end.

(** A bounded buffer keeps the newest. *)
Definition newest (maxlen : nat) (l : list sample) : list sample := skipn (length l - maxlen) l.

Fixpoint keep (maxlen : nat) (q xs : list sample) : list sample :=
  match xs with
  | [] => q
  | x :: xs => keep maxlen (newest maxlen (q ++ [x])) xs
  end.

(** A call that leaves the publisher registered, its tracing going and its buffer
    alone, but for publications. *)
Definition quiet (id : nat) (o : op) : bool :=
  match o with
  | RegPub i _ | UnregPub i => negb (i =? id)
  | Wait i _ _ _ => negb (i =? id)
  | Control _ _ | Batch _ _ | Enabled _ | SetProcess _ => false
  | _ => true
  end.

Fixpoint publications (id : nat) (h : list op) : nat :=
  match h with
  | [] => 0
  | o :: h => (if is_event Pub id o then 1 else 0) + publications id h
  end.
