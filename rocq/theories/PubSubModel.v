(** The publish/subscribe data path as a transition system: any number of publishers, channels (one per
    publisher and subscriber process) and subscribers. One label = one await-free section of one task.
    Sources: /repo/src/ezmsg/core/pubclient.py:323-582, messagechannel.py:250-467, subclient.py:95-324,
    channelmanager.py:81-129; backpressure.py and messagecache.py through their models.

    Simplifications:
    - identifiers (UUIDs) are numbers; a fresh number for every channel;
    - [broadcast] calls of one publisher are not overlapped (a publisher has one [phase]);
    - serialisation is abstract: a slot of a shared-memory segment holds (message id, object); C05-C08 are
      about the bytes. Whether a message needs a bigger segment is chosen by the schedule ([grow]);
    - connections are FIFO lists of frames; C02/C03 are about their bytes;
    - the publisher notices a lost channel only after the channel stopped (its end of the connection closed);
    - channels do not connect or disconnect while a broadcast is suspended inside its loop over the channels
      (Python would raise "dictionary changed size during iteration" there);
    - a message object is not mutated by its sender after [broadcast];
    - releasing a memoryview that is still in use (BufferError) is not modelled. *)
From Coq Require Import List ZArith Arith Bool.
From Verif Require Import BackpressureModel CacheModel TransportModel.
Import ListNotations.

(** Fixed facts. [kind c]: the transport chosen for channel [c] (TransportModel / C14). [own c]: the
    channel lives in its publisher's process and the publisher registered its backpressure with it
    (pubclient.py:211-215). [maxq s]: [None] for a non-leaky subscriber, else the maxsize of its LeakyQueue. *)
Record config := {
  nbuf : nat -> nat; pubof : nat -> nat; kind : nat -> transport; own : nat -> bool; maxq : nat -> option Z }.

Definition upd {A} (f : nat -> A) (k : nat) (v : A) : nat -> A := fun j => if Nat.eqb j k then v else f j.

Section PubSub.
Context {Obj : Type}.
Variable cfg : config.

(** A cached or received message: its own object, or a view of slot [b] of segment number [g]. *)
Inductive handle := Val (o : Obj) | View (g b : nat).

(** messagechannel.py:263-306: frames on the connection publisher -> channel. The segment name is the
    number of the segment (a publisher's segments are numbered in order of creation). *)
Inductive frame := FShm (m g : nat) | FTcp (m : nat) (o : Obj).
Definition fid (f : frame) : nat := match f with FShm m _ => m | FTcp m _ => m end.

(** Where [broadcast] (pubclient.py:475-569) is suspended. *)
Inductive phase :=
| Idle
| WaitRun (o : Obj) (woken : bool)         (* await self._running.wait() *)
| WaitBuf (o : Obj)                        (* await self._backpressure.wait(buf_idx) *)
| Growing (o : Obj)                        (* await create_shm / wait_closed; local delivery is done *)
| Draining (o : Obj) (cur : nat) (todo : list nat). (* frame written to [cur], await drain(); [todo] follow *)

Record pubst := {
  p_sent : list Obj;           (* ghost: objects whose sending has begun; the index is the message id *)
  p_nxt : nat;                 (* _msg_id *)
  p_run : bool;                (* _running.is_set() *)
  p_phase : phase;
  p_bp : backpressure;         (* _backpressure *)
  p_gen : nat;                 (* number of the current segment (_shm) *)
  p_mem : nat -> nat -> option (nat * Obj);  (* contents of segment/slot *)
  p_chans : list nat }.        (* _channels, in insertion order *)

Record chst := {
  c_born : bool; c_up : bool;  (* exists; its _publisher_connection task is running *)
  c_gen : nat;                 (* segment it has attached *)
  c_next : nat;                (* ghost: id of the next message to arrive *)
  c_wire : list frame;         (* written by the publisher, not yet read *)
  c_ackw : list nat;           (* acknowledgements written, not yet read by the publisher *)
  c_bp : backpressure;         (* Channel.backpressure *)
  c_cache : cache handle;      (* Channel.cache *)
  c_clients : list nat;        (* Channel.clients with a queue *)
  c_re : option (list nat * nat * nat) }. (* switching segments: cached ids, message id, new segment *)

(** A message a subscriber has received and not yet released. [r_stale] (ghost): the subscriber has been
    unregistered from the channel since. *)
Record rd := { r_pub : nat; r_id : nat; r_chan : nat; r_h : handle; r_stale : bool }.

(** History of a subscriber with one publisher (ghost): received with the object seen, CacheMiss raised,
    dropped by the leaky queue. *)
Inductive ev := EGot (m : nat) (v : option Obj) | EMiss (m : nat) | EDrop (m : nat).
Definition ev_id (e : ev) : nat := match e with EGot m _ => m | EMiss m => m | EDrop m => m end.

Record sbst := {
  s_chan : nat -> option nat;      (* Subscriber._channels: publisher -> channel *)
  s_queue : list (nat * nat);      (* _incoming *)
  s_reading : list rd;
  s_join : nat -> nat;             (* ghost: first message id due since it registered with the publisher *)
  s_hist : nat -> list ev }.       (* ghost: history with a publisher since it registered *)

Record st := { pubs : nat -> pubst; chs : nat -> chst; sbs : nat -> sbst }.

Definition setP (x : st) p v := {| pubs := upd (pubs x) p v; chs := chs x; sbs := sbs x |}.
Definition setC (x : st) c v := {| pubs := pubs x; chs := upd (chs x) c v; sbs := sbs x |}.
Definition setS (x : st) s v := {| pubs := pubs x; chs := chs x; sbs := upd (sbs x) s v |}.

Definition with_bp (P : pubst) bp := {| p_sent := p_sent P; p_nxt := p_nxt P; p_run := p_run P; p_phase := p_phase P;
  p_bp := bp; p_gen := p_gen P; p_mem := p_mem P; p_chans := p_chans P |}.
Definition with_phase (P : pubst) ph := {| p_sent := p_sent P; p_nxt := p_nxt P; p_run := p_run P; p_phase := ph;
  p_bp := p_bp P; p_gen := p_gen P; p_mem := p_mem P; p_chans := p_chans P |}.
Definition with_cbp (C : chst) bp := {| c_born := c_born C; c_up := c_up C; c_gen := c_gen C; c_next := c_next C;
  c_wire := c_wire C; c_ackw := c_ackw C; c_bp := bp; c_cache := c_cache C; c_clients := c_clients C; c_re := c_re C |}.
Definition with_cache (C : chst) k := {| c_born := c_born C; c_up := c_up C; c_gen := c_gen C; c_next := c_next C;
  c_wire := c_wire C; c_ackw := c_ackw C; c_bp := c_bp C; c_cache := k; c_clients := c_clients C; c_re := c_re C |}.
Definition with_ackw (C : chst) a := {| c_born := c_born C; c_up := c_up C; c_gen := c_gen C; c_next := c_next C;
  c_wire := c_wire C; c_ackw := a; c_bp := c_bp C; c_cache := c_cache C; c_clients := c_clients C; c_re := c_re C |}.
Definition with_wire (C : chst) w := {| c_born := c_born C; c_up := c_up C; c_gen := c_gen C; c_next := c_next C;
  c_wire := w; c_ackw := c_ackw C; c_bp := c_bp C; c_cache := c_cache C; c_clients := c_clients C; c_re := c_re C |}.
Definition with_queue (S : sbst) q := {| s_chan := s_chan S; s_queue := q; s_reading := s_reading S; s_join := s_join S; s_hist := s_hist S |}.
Definition with_reading (S : sbst) r := {| s_chan := s_chan S; s_queue := s_queue S; s_reading := r; s_join := s_join S; s_hist := s_hist S |}.
Definition log_ev (S : sbst) p e := {| s_chan := s_chan S; s_queue := s_queue S; s_reading := s_reading S; s_join := s_join S;
  s_hist := upd (s_hist S) p (s_hist S p ++ [e]) |}.

Definition slot_of (p m : nat) : nat := m mod nbuf cfg p.

(** messagechannel.py:398-423 [_release_backpressure] and [_acknowledge]. If [cache.release] raises
    CacheMiss, nothing after it happens. *)
Definition release (x : st) (c m s : nat) : st :=
  let p := pubof cfg c in let b := slot_of p m in
  let C := with_cbp (chs x c) (bp_free s (Some b) (c_bp (chs x c))) in
  let x := setC x c C in
  match bp_available (c_bp C) b with
  | Some true =>
      match cache_release (c_cache C) m with
      | (k, true) =>
          let x := setC x c (with_cache C k) in
          if own cfg c then setP x p (with_bp (pubs x p) (bp_free c (Some b) (p_bp (pubs x p))))
          else setC x c (with_ackw (with_cache C k) (c_ackw C ++ [m]))
      | (_, false) => x
      end
  | _ => x
  end.

(** messagechannel.py:48-55 [_drop_oldest] with subclient.py:144-158 as its callback. *)
Definition drop_oldest (x : st) (s : nat) : st :=
  match s_queue (sbs x s) with
  | [] => x
  | (p, m) :: q =>
      let x := setS x s (log_ev (with_queue (sbs x s) q) p (EDrop m)) in
      match s_chan (sbs x s) p with
      | Some c => release x c m s
      | None => x
      end
  end.

(** asyncio.Queue.full for the subscriber's queue. *)
Definition queue_full (x : st) (s : nat) : bool :=
  match maxq cfg s with
  | None => false
  | Some k => if (k <=? 0)%Z then false else (k <=? Z.of_nat (length (s_queue (sbs x s))))%Z
  end.

(** messagechannel.py:57-67 (LeakyQueue) or asyncio.Queue.put_nowait. *)
Definition push (x : st) (s p m : nat) : st :=
  let x := if queue_full x s then drop_oldest x s else x in
  setS x s (with_queue (sbs x s) (s_queue (sbs x s) ++ [(p, m)])).

(** messagechannel.py:337-345 [_notify_clients], one client. *)
Definition notify1 (c m : nat) (x : st) (s : nat) : st :=
  let p := pubof cfg c in
  let x := setC x c (with_cbp (chs x c) (bp_lease s (slot_of p m) (c_bp (chs x c)))) in
  push x s p m.

Definition notify (x : st) (c m : nat) : st := fold_left (notify1 c m) (c_clients (chs x c)) x.

Definition anyone (x : st) (c m : nat) : bool :=
  match bp_available (c_bp (chs x c)) (slot_of (pubof cfg c) m) with Some true => false | _ => true end.

Definition bump (C : chst) : chst := {| c_born := c_born C; c_up := c_up C; c_gen := c_gen C; c_next := S (c_next C);
  c_wire := c_wire C; c_ackw := c_ackw C; c_bp := c_bp C; c_cache := c_cache C; c_clients := c_clients C; c_re := c_re C |}.

(** messagechannel.py:347-361 [put_local]. *)
Definition put_local (x : st) (c m : nat) (o : Obj) : st :=
  let p := pubof cfg c in
  let x := notify (setC x c (bump (chs x c))) c m in
  if anyone x c m then
    let x := setC x c (with_cache (chs x c) (cache_put (c_cache (chs x c)) {| e_obj := Val o; e_id := m; e_mem := None |})) in
    setP x p (with_bp (pubs x p) (bp_lease c (slot_of p m) (p_bp (pubs x p))))
  else x.

(** messagechannel.py:287-289 or 300-303, then 308-311: put the message in the cache, notify, and if nobody
    listens release and acknowledge it at once. *)
Definition receive (x : st) (c : nat) (e : entry handle) : st :=
  let m := e_id e in
  let x := setC x c (with_cache (bump (chs x c)) (cache_put (c_cache (chs x c)) e)) in
  let x := notify x c m in
  if anyone x c m then x
  else setC x c (with_ackw (with_cache (chs x c) (fst (cache_release (c_cache (chs x c)) m)))
                           (c_ackw (chs x c) ++ [m])).

(** messagechannel.py:312-319: the task ends (exception, cancellation, EOF): the cache is cleared. *)
Definition chan_down (x : st) (c : nat) : st :=
  let C := chs x c in
  setC x c {| c_born := c_born C; c_up := false; c_gen := c_gen C; c_next := c_next C; c_wire := []; c_ackw := c_ackw C;
              c_bp := c_bp C; c_cache := cache_clear (c_cache C); c_clients := c_clients C; c_re := None |}.

Definition is_local (c : nat) : bool := match kind cfg c with InProcess => true | _ => false end.
Definition is_shm (c : nat) : bool := match kind cfg c with SharedMemory => true | _ => false end.

(** pubclient.py:541-562: the frame for one channel. *)
Definition frame_for (P : pubst) (c m : nat) (o : Obj) : frame :=
  if is_shm c then FShm m (p_gen P) else FTcp m o.

Definition write_frame (x : st) (p c : nat) (o : Obj) : st :=
  setC x c (with_wire (chs x c) (c_wire (chs x c) ++ [frame_for (pubs x p) c (p_nxt (pubs x p)) o])).

(** pubclient.py:568-569: end of broadcast. *)
Definition finish (x : st) (p : nat) : st :=
  let P := pubs x p in
  setP x p {| p_sent := p_sent P; p_nxt := S (p_nxt P); p_run := p_run P; p_phase := Idle;
              p_bp := p_bp P; p_gen := p_gen P; p_mem := p_mem P; p_chans := p_chans P |}.

(** pubclient.py:535-566: continue with the remaining channels. *)
Definition next_channel (x : st) (p : nat) (o : Obj) (todo : list nat) : st :=
  match todo with
  | [] => finish x p
  | c :: todo' => let x := write_frame x p c o in setP x p (with_phase (pubs x p) (Draining o c todo'))
  end.

Definition upd2 {A} (f : nat -> nat -> A) (i j : nat) (v : A) : nat -> nat -> A :=
  fun i' j' => if Nat.eqb i' i && Nat.eqb j' j then v else f i' j'.

(** pubclient.py:530-533: write the message into its slot of the current segment. *)
Definition write_slot (x : st) (p : nat) (o : Obj) : st :=
  let P := pubs x p in
  setP x p {| p_sent := p_sent P; p_nxt := p_nxt P; p_run := p_run P; p_phase := p_phase P; p_bp := p_bp P; p_gen := p_gen P;
              p_mem := upd2 (p_mem P) (p_gen P) (slot_of p (p_nxt P)) (Some (p_nxt P, o)); p_chans := p_chans P |}.

Definition non_local (cs : list nat) : list nat := filter (fun c => negb (is_local c)) cs.

(** pubclient.py:497-566 after the slot is free, up to the next suspension. *)
Definition start (x : st) (p : nat) (o : Obj) (grow : bool) : st :=
  let P := pubs x p in
  let m := p_nxt P in
  let x := setP x p {| p_sent := p_sent P ++ [o]; p_nxt := m; p_run := p_run P; p_phase := p_phase P;
                       p_bp := p_bp P; p_gen := p_gen P; p_mem := p_mem P; p_chans := p_chans P |} in
  let x := match find is_local (p_chans P) with Some c => put_local x c m o | None => x end in
  let remote := non_local (p_chans P) in
  if existsb is_shm remote then
    if grow then setP x p (with_phase (pubs x p) (Growing o))
    else next_channel (write_slot x p o) p o remote
  else next_channel x p o remote.

(** pubclient.py:509-533: the bigger segment has been created: copy the slots (C07), switch, write, send. *)
Definition grown (x : st) (p : nat) (o : Obj) : st :=
  let P := pubs x p in
  let x := setP x p {| p_sent := p_sent P; p_nxt := p_nxt P; p_run := p_run P; p_phase := p_phase P; p_bp := p_bp P;
                       p_gen := S (p_gen P);
                       p_mem := (fun g b => if Nat.eqb g (S (p_gen P)) then p_mem P (p_gen P) b else p_mem P g b);
                       p_chans := p_chans P |} in
  next_channel (write_slot x p o) p o (non_local (p_chans P)).

(** pubclient.py:488-497: the checks before sending. *)
Definition try_send (x : st) (p : nat) (o : Obj) (grow : bool) : st :=
  let P := pubs x p in
  match bp_available (p_bp P) (slot_of p (p_nxt P)) with
  | Some true => start x p o grow
  | _ => setP x p (with_phase P (WaitBuf o))
  end.

Definition entry_of_slot (P : pubst) (g b : nat) : option (entry handle) :=
  match p_mem P g b with Some (k, _) => Some {| e_obj := View g b; e_id := k; e_mem := Some 0 |} | None => None end.

(** messagechannel.py:283-285: re-reading the cached messages from the new segment; [None]: UninitializedMemory. *)
Fixpoint reput (P : pubst) (p g : nat) (ids : list nat) (k : cache handle) : option (cache handle) :=
  match ids with
  | [] => Some k
  | i :: ids' =>
      match entry_of_slot P g (slot_of p i) with
      | Some e => reput P p g ids' (cache_put k e)
      | None => None
      end
  end.

(** messagechannel.py:287-289: check the id in the slot, put it in the cache; then 308-311. *)
Definition take_shm (x : st) (c m g : nat) : st :=
  let p := pubof cfg c in
  match entry_of_slot (pubs x p) g (slot_of p m) with
  | Some e => if Nat.eqb (e_id e) m
              then receive x c e
              else chan_down x c
  | None => chan_down x c
  end.

Inductive label :=
| LBroadcast (p : nat) (o : Obj) (grow : bool) | LProceed (p : nat) (grow : bool) | LGrown (p : nat)
| LDrained (p : nat) | LDrainFail (p : nat) | LPause (p : nat) | LResume (p : nat)
| LChanRecv (c : nat) | LReattach (c : nat) | LAck (c : nat)
| LGet (s : nat) | LRelease (s k : nat)
| LConnect (c : nat) | LChanDown (c : nat) | LPubDown (c : nat) | LJoin (s c : nat) | LLeave (s p : nat).

Definition remove_nth {A} (k : nat) (l : list A) : list A := firstn k l ++ skipn (S k) l.

Definition visible (x : st) (p : nat) (h : handle) : option Obj :=
  match h with Val o => Some o | View g b => match p_mem (pubs x p) g b with Some (_, o) => Some o | None => None end end.

Definition step (x : st) (l : label) : option st :=
  match l with
  | LBroadcast p o grow =>   (* pubclient.py:475-497 *)
      match p_phase (pubs x p) with
      | Idle => Some (if p_run (pubs x p) then try_send x p o grow
                      else setP x p (with_phase (pubs x p) (WaitRun o false)))
      | _ => None
      end
  | LProceed p grow =>
      match p_phase (pubs x p) with
      | WaitRun o true => Some (try_send x p o grow)
      | WaitBuf o => match bp_available (p_bp (pubs x p)) (slot_of p (p_nxt (pubs x p))) with
                     | Some true => Some (start x p o grow) | _ => None end
      | _ => None
      end
  | LGrown p => match p_phase (pubs x p) with Growing o => Some (grown x p o) | _ => None end
  | LDrained p =>            (* pubclient.py:559-561 *)
      match p_phase (pubs x p) with
      | Draining o c todo =>
          let P := pubs x p in
          Some (next_channel (setP x p (with_bp P (bp_lease c (slot_of p (p_nxt P)) (p_bp P)))) p o todo)
      | _ => None
      end
  | LDrainFail p =>          (* pubclient.py:563-566 *)
      match p_phase (pubs x p) with
      | Draining o c todo => if c_up (chs x c) then None else Some (next_channel x p o todo)
      | _ => None
      end
  | LPause p =>              (* 459-465, and 439-447 sync() before it waits *)
      let P := pubs x p in
      Some (setP x p {| p_sent := p_sent P; p_nxt := p_nxt P; p_run := false; p_phase := p_phase P; p_bp := p_bp P;
                        p_gen := p_gen P; p_mem := p_mem P; p_chans := p_chans P |})
  | LResume p =>             (* 467-473; asyncio.Event.set wakes the waiter *)
      let P := pubs x p in
      Some (setP x p {| p_sent := p_sent P; p_nxt := p_nxt P; p_run := true;
                        p_phase := match p_phase P with WaitRun o _ => WaitRun o true | ph => ph end;
                        p_bp := p_bp P; p_gen := p_gen P; p_mem := p_mem P; p_chans := p_chans P |})
  | LChanRecv c =>           (* messagechannel.py:257-311, one frame *)
      let C := chs x c in
      if c_up C then
        match c_re C, c_wire C with
        | None, f :: w =>
            let x' := setC x c (with_wire C w) in
            match f with
            | FTcp m o => Some (receive x' c {| e_obj := Val o; e_id := m; e_mem := Some 0 |})
            | FShm m g =>
                if Nat.eqb (c_gen C) g then Some (take_shm x' c m g)
                else Some (setC x c {| c_born := c_born C; c_up := c_up C; c_gen := c_gen C; c_next := c_next C; c_wire := w;
                                        c_ackw := c_ackw C; c_bp := c_bp C; c_cache := cache_clear (c_cache C);
                                        c_clients := c_clients C; c_re := Some (cache_keys (c_cache C), m, g) |})
            end
        | _, _ => None
        end
      else None
  | LReattach c =>           (* messagechannel.py:274-289 after the awaits *)
      let C := chs x c in
      if c_up C then
        match c_re C with
        | Some (keys, m, g) =>
            match reput (pubs x (pubof cfg c)) (pubof cfg c) g keys (c_cache C) with
            | Some k => Some (take_shm (setC x c {| c_born := c_born C; c_up := c_up C; c_gen := g; c_next := c_next C;
                                 c_wire := c_wire C; c_ackw := c_ackw C; c_bp := c_bp C; c_cache := k;
                                 c_clients := c_clients C; c_re := None |}) c m g)
            | None => Some (chan_down x c)
            end
        | None => None
        end
      else None
  | LAck c =>                (* pubclient.py:416-423 *)
      let p := pubof cfg c in
      match c_ackw (chs x c) with
      | m :: a =>
          if existsb (Nat.eqb c) (p_chans (pubs x p)) then
            let x := setC x c (with_ackw (chs x c) a) in
            Some (setP x p (with_bp (pubs x p) (bp_free c (Some (slot_of p m)) (p_bp (pubs x p)))))
          else None
      | [] => None
      end
  | LGet s =>                (* subclient.py:298-313; messagechannel.py:363-382 *)
      match s_queue (sbs x s) with
      | [] => None
      | (p, m) :: q =>
          let S := with_queue (sbs x s) q in
          match s_chan S p with
          | None => Some (setS x s S)
          | Some c =>
              match cache_get (c_cache (chs x c)) m with
              | Some h =>
                  Some (setS x s (with_reading (log_ev S p (EGot m (visible x p h)))
                          (s_reading S ++ [{| r_pub := p; r_id := m; r_chan := c; r_h := h; r_stale := false |}])))
              | None => Some (release (setS x s (log_ev S p (EMiss m))) c m s)
              end
          end
      end
  | LRelease s k =>          (* messagechannel.py:380-382 *)
      match nth_error (s_reading (sbs x s)) k with
      | Some r => Some (release (setS x s (with_reading (sbs x s) (remove_nth k (s_reading (sbs x s))))) (r_chan r) (r_id r) s)
      | None => None
      end
  | LConnect c =>            (* pubclient.py:366-413, messagechannel.py:132-207 *)
      let p := pubof cfg c in let P := pubs x p in
      if c_born (chs x c) then None
      else match p_phase P with
      | Draining _ _ _ => None
      | _ =>
          if is_local c && existsb is_local (p_chans P) then None
          else
            let x := setP x p {| p_sent := p_sent P; p_nxt := p_nxt P; p_run := p_run P; p_phase := p_phase P; p_bp := p_bp P;
                                 p_gen := p_gen P; p_mem := p_mem P; p_chans := p_chans P ++ [c] |} in
            Some (setC x c {| c_born := true; c_up := true; c_gen := p_gen P;
                              c_next := if is_local c then length (p_sent P) else p_nxt P;
                              c_wire := []; c_ackw := []; c_bp := bp_new (nbuf cfg p); c_cache := cache_new (nbuf cfg p);
                              c_clients := []; c_re := None |})
      end
  | LChanDown c => if c_up (chs x c) then Some (chan_down x c) else None
  | LPubDown c =>            (* pubclient.py:429-437 *)
      let p := pubof cfg c in let P := pubs x p in
      if c_up (chs x c) then None
      else match p_phase P with
      | Draining _ _ _ => None
      | _ =>
          if existsb (Nat.eqb c) (p_chans P) then
            Some (setP x p {| p_sent := p_sent P; p_nxt := p_nxt P; p_run := p_run P; p_phase := p_phase P;
                              p_bp := bp_free c None (p_bp P); p_gen := p_gen P; p_mem := p_mem P;
                              p_chans := filter (fun d => negb (Nat.eqb d c)) (p_chans P) |})
          else None
      end
  | LJoin s c =>             (* messagechannel.py:425-443, subclient.py:237-251 *)
      let p := pubof cfg c in let C := chs x c in let S := sbs x s in
      if c_up C then
        match s_chan S p with
        | Some _ => None
        | None =>
            let x := setC x c {| c_born := c_born C; c_up := c_up C; c_gen := c_gen C; c_next := c_next C; c_wire := c_wire C;
                                 c_ackw := c_ackw C; c_bp := c_bp C; c_cache := c_cache C;
                                 c_clients := c_clients C ++ [s]; c_re := c_re C |} in
            Some (setS x s {| s_chan := upd (s_chan S) p (Some c); s_queue := s_queue S; s_reading := s_reading S;
                              s_join := upd (s_join S) p (c_next C); s_hist := upd (s_hist S) p [] |})
        end
      else None
  | LLeave s p =>            (* messagechannel.py:445-467 with the queue clean-up of LeakyQueueModel; subclient.py:253-256 *)
      let S := sbs x s in
      match s_chan S p with
      | None => None
      | Some c =>
          let C := chs x c in
          let x := setC x c {| c_born := c_born C; c_up := c_up C; c_gen := c_gen C; c_next := c_next C; c_wire := c_wire C;
                               c_ackw := c_ackw C; c_bp := bp_free s None (c_bp C); c_cache := c_cache C;
                               c_clients := filter (fun t => negb (Nat.eqb t s)) (c_clients C); c_re := c_re C |} in
          Some (setS x s {| s_chan := upd (s_chan S) p None;
                            s_queue := filter (fun n => negb (Nat.eqb (fst n) p)) (s_queue S);
                            s_reading := map (fun r => if Nat.eqb (r_pub r) p
                                                       then {| r_pub := r_pub r; r_id := r_id r; r_chan := r_chan r; r_h := r_h r; r_stale := true |}
                                                       else r) (s_reading S);
                            s_join := s_join S; s_hist := s_hist S |})
      end
  end.

(** The beginning: publishers exist, nothing is connected. *)
Definition init : st :=
  {| pubs := fun p => {| p_sent := []; p_nxt := 0; p_run := true; p_phase := Idle; p_bp := bp_new (nbuf cfg p); p_gen := 0;
                         p_mem := fun _ _ => None; p_chans := [] |};
     chs := fun _ => {| c_born := false; c_up := false; c_gen := 0; c_next := 0; c_wire := []; c_ackw := []; c_bp := bp_new 0;
                        c_cache := cache_new 0; c_clients := []; c_re := None |};
     sbs := fun _ => {| s_chan := fun _ => None; s_queue := []; s_reading := []; s_join := fun _ => 0; s_hist := fun _ => [] |} |}.

Fixpoint run (x : st) (ls : list label) : option st :=
  match ls with
  | [] => Some x
  | l :: ls' => match step x l with Some x' => run x' ls' | None => None end
  end.
End PubSub.
Arguments handle : clear implicits.
Arguments frame : clear implicits.
Arguments phase : clear implicits.
Arguments pubst : clear implicits.
Arguments chst : clear implicits.
Arguments sbst : clear implicits.
Arguments st : clear implicits.
Arguments rd : clear implicits.
Arguments ev : clear implicits.
Arguments label : clear implicits.
