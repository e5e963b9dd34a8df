(** What the publish/subscribe properties (C15-C23) talk about. Only the transition system of PubSubModel.v
    is used here. *)
From Coq Require Import List ZArith Arith Bool.
From Verif Require Import BackpressureModel CacheModel TransportModel PubSubModel.
Import ListNotations.

(** A sensible configuration: publishers have at least one buffer; a channel that gets messages in process is
    the publisher's own (pubclient.py:211-215, 571-574). *)
Record wf (cfg : config) : Prop := {
  wf_nbuf : forall p, 0 < nbuf cfg p;
  wf_own : forall c, kind cfg c = InProcess -> own cfg c = true }.

Section Spec.
Context {Obj : Type}.
Variable cfg : config.
Notation st := (st Obj).
Implicit Types x : st.

(** Subscriber [s] is registered through channel [c], has been told of message [m] (notification queued), or
    received it, and has not released it. *)
Definition holds x (s c m : nat) : Prop :=
  s_chan (sbs x s) (pubof cfg c) = Some c /\
  (In (pubof cfg c, m) (s_queue (sbs x s)) \/
   exists r, In r (s_reading (sbs x s)) /\ r_stale r = false /\ r_pub r = pubof cfg c /\ r_id r = m).

(** Message [m] of publisher [p] is outstanding: a registered subscriber with a working connection holds it. *)
Definition outstanding x (p m : nat) : Prop := exists s c, pubof cfg c = p /\ c_up (chs x c) = true /\ holds x s c m.

(** Lease table [b] counts [u] as using buffer [i]. *)
Definition leased (b : backpressure) (u i : nat) : Prop := exists l, nth_error (buffers b) i = Some l /\ In u (leases l).

(** The object published as message [m]. *)
Definition published x (p m : nat) : option Obj := nth_error (p_sent (pubs x p)) m.

(** The objects a subscriber got, in order. *)
Fixpoint received (h : list (ev Obj)) : list (nat * option Obj) :=
  match h with
  | [] => []
  | EGot m v :: h' => (m, v) :: received h'
  | _ :: h' => received h'
  end.

(** The channel has not yet answered for message [m]: it is on its way, cached, or the acknowledgement is on
    its way back. *)
Definition unanswered (C : chst Obj) (m : nat) : Prop :=
  In m (map fid (c_wire C)) \/ In m (match c_re C with Some (_, m', _) => [m'] | None => [] end) \/
  ((exists h, cache_get (c_cache C) m = Some h) \/ In m (match c_re C with Some (k, _, _) => k | None => [] end)) \/
  In m (c_ackw C).

(** Schedules. A subscriber that was disconnected while holding a message of a publisher does not register with
    this publisher again before it has released the message. *)
Definition join_ok x (l : label Obj) : Prop :=
  match l with LJoin s c => forall r, In r (s_reading (sbs x s)) -> r_stale r = true -> r_pub r <> pubof cfg c | _ => True end.

(** Every state of every such schedule. *)
Inductive reach : st -> Prop :=
| reach_init : reach (init cfg)
| reach_step x l x' : reach x -> join_ok x l -> step cfg x l = Some x' -> reach x'.

(** A subscriber is disconnected only when it holds nothing (see C21). *)
Definition leave_ok x (l : label Obj) : Prop :=
  match l with LLeave s p => forall c m, pubof cfg c = p -> ~ holds x s c m | _ => True end.

(** No acknowledgement overtakes the publisher's own bookkeeping: while the publisher waits for [drain] after
    writing a frame, that message has not been answered completely (see C23). *)
Definition prompt x : Prop := forall p o cur todo,
  p_phase (pubs x p) = Draining o cur todo -> c_up (chs x cur) = true -> unanswered (chs x cur) (p_nxt (pubs x p)).

(** While a channel switches to a bigger segment, its messages are still wanted by somebody: nobody lets go of
    the last hold on a message during the switch (it would fail with CacheMiss, see C16). *)
Definition keeps x : Prop := forall c keys m g i,
  c_up (chs x c) = true -> c_re (chs x c) = Some (keys, m, g) -> In i keys -> exists s, holds x s c i.

(** Every state of every schedule without these incidents. *)
Inductive reachw : st -> Prop :=
| reachw_init : reachw (init cfg)
| reachw_step x l x' : reachw x -> join_ok x l -> leave_ok x l -> step cfg x l = Some x' -> prompt x' -> keeps x' -> reachw x'.

(** The steps that bring messages to their end: publishers finish the broadcast they have begun, channels read
    frames, publishers read acknowledgements and forget lost channels, subscribers receive and release. No new
    broadcast, no connection made or broken. *)
Definition consume (l : label Obj) : Prop :=
  match l with
  | LGrown _ | LDrained _ | LDrainFail _ | LChanRecv _ | LReattach _ | LAck _ | LGet _ | LRelease _ _ | LPubDown _ => True
  | _ => False
  end.

(** No channel is in the middle of switching to another segment. *)
Definition calm x : Prop := forall c, c_re (chs x c) = None.

(** One step of consumption; the switch to a new segment counts as one step. *)
Inductive drain1 : st -> st -> Prop :=
| drain_step x l x' : consume l -> step cfg x l = Some x' -> calm x' -> prompt x' -> drain1 x x'
| drain_switch x c y x' : step cfg x (LChanRecv c) = Some y -> step cfg y (LReattach c) = Some x' -> calm x' -> prompt x' -> drain1 x x'.

Inductive drains : nat -> st -> st -> Prop :=
| drains_0 x : drains 0 x x
| drains_S n x y z : drain1 x y -> drains n y z -> drains (S n) x z.

(** The subscriber's queue never drops: it is not leaky, or its limit is not positive (asyncio.Queue: unbounded). *)
Definition never_drops (s : nat) : Prop := match maxq cfg s with Some k => (k <= 0)%Z | None => True end.

(** A receive takes place on a working connection that is not switching segments. *)
Definition get_ok x (l : label Obj) : Prop :=
  match l with
  | LGet s => match s_queue (sbs x s) with
              | (p, _) :: _ => forall c, s_chan (sbs x s) p = Some c -> c_up (chs x c) = true /\ c_re (chs x c) = None
              | [] => True
              end
  | _ => True
  end.

Inductive reachg : st -> Prop :=
| reachg_init : reachg (init cfg)
| reachg_step x l x' : reachg x -> join_ok x l -> get_ok x l -> step cfg x l = Some x' -> reachg x'.

(** The history of subscriber [s] with publisher [p] delivers exactly the objects with ids [a], [a+1], ... *)
Definition delivers_from (sent : list Obj) (a : nat) (h : list (ev Obj)) : Prop :=
  received h = map (fun i => (i, nth_error sent i)) (seq a (length h)) /\
  forall i, i < length h -> a + i < length sent.

(** Ids of publisher [p] in a list of notifications. *)
Fixpoint ids_of (p : nat) (q : list (nat * nat)) : list nat :=
  match q with [] => [] | (p', m) :: q' => if Nat.eqb p' p then m :: ids_of p q' else ids_of p q' end.

(** How broadcast went. *)
Definition waits_for_buffer x p : Prop := exists o, p_phase (pubs x p) = WaitBuf o.
Definition between_broadcasts x p : Prop :=
  match p_phase (pubs x p) with Idle | WaitRun _ _ | WaitBuf _ => True | _ => False end.
(** The publisher is not past the running check of a broadcast. *)
Definition stoppable x p : Prop :=
  match p_phase (pubs x p) with Idle | WaitRun _ false => True | _ => False end.
End Spec.
