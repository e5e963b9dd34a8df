(* Overlapping and cancelled calls of broadcast() on one publisher:
     pubclient.py:475-569          Publisher.broadcast, 459-473 pause, resume,
     backpressure.py:29-67, 108-177 BufferLease, Backpressure,
     messagechannel.py:250-320     Channel._publisher_connection, 337-345 _notify_clients, 347-361 put_local,
     messagechannel.py:363-423     get, _release_backpressure, _acknowledge,
     messagecache.py:43-138        MessageCache,
     sync.py:20-25, 35-37          _future_result, SyncPublisher.publish.
   One label = one await-free section of one task.

   PubSubModel.v has any number of publishers, channels that come and go, several subscribers to a channel, segments
   that grow, but no overlapping calls on one publisher.  This model has those, and else:
   - one publisher; its channels are there from the beginning, and stay; each has one subscriber, which is not leaky and
     reads one message at a time (so that the channel's own Backpressure, which only its subscriber leases, decides
     nothing);
   - every message fits the segment;
   - a drain() that does not suspend is one that is continued at once;
   - what the publisher does about a channel that has failed is left out. *)

From Coq Require Import List Arith Bool.
From Verif Require Import TransportModel.
Import ListNotations.

Section Overlap.
Context {Obj : Type}.
Context (nbuf : nat) (chans : list nat) (kind : nat -> transport).

Definition upd {A} (f : nat -> A) (k : nat) (v : A) : nat -> A := fun j => if j =? k then v else f j.

(** What a cache entry refers to: an object of its own, or slot [b] of the segment (messagecache.py:63-100). *)
Inductive handle := Val (o : Obj) | View (b : nat).

(** pubclient.py:541-555: TX_SHM with the number of the message; TX_TCP with that number and the serialised message,
    whose header has a number too. *)
Inductive frame := FShm (m : nat) | FTcp (m header : nat) (o : Obj).

(** Where a call is suspended. *)
Inductive pc :=
| Called                                              (* the task has not begun *)
| AtGate (woken : bool)                               (* 485: await self._running.wait() *)
| AtBuffer (b m : nat) (woken : bool)                 (* 497: await self._backpressure.wait(buf_idx); [b] is buf_idx,
                                                         [m] the number in msg_id_bytes *)
| AtDrain (b m header cur : nat) (todo : list nat)    (* 559: await channel.writer.drain() of channel [cur] *)
| Returned
| Cancelled.

(** [late]: the caller has given up, with TimeoutError. *)
Record call := mkCall { obj : Obj; at_ : pc; late : bool }.

Record chan := mkChan {
  wire : list frame;                        (* frames written and not read *)
  cache : nat -> option (nat * handle);     (* Channel.cache: message number and object of each slot *)
  queue : list nat;                         (* Subscriber._incoming *)
  held : option nat;                        (* the message being handled *)
  acks : list nat;                          (* RX_ACKs written and not read *)
  got : list (option Obj);                  (* what the subscriber was given; None: CacheMiss *)
  up : bool                                 (* the task _publisher_connection runs *)
}.

Record st := mkSt {
  running : bool;                           (* _running.is_set() *)
  next : nat;                               (* _msg_id *)
  leases : list (nat * nat);                (* _backpressure: channel, slot *)
  mem : nat -> option (nat * Obj);          (* the segment: header's number and message of each slot *)
  calls : list call;
  ch : nat -> chan
}.

Definition init : st :=
  mkSt true 0 [] (fun _ => None) [] (fun _ => mkChan [] (fun _ => None) [] None [] [] true).

Definition slot (m : nat) : nat := m mod nbuf.

Definition set_ch (s : st) (c : nat) (x : chan) : st :=
  mkSt (running s) (next s) (leases s) (mem s) (calls s) (upd (ch s) c x).
Definition set_calls (s : st) (l : list call) : st := mkSt (running s) (next s) (leases s) (mem s) l (ch s).

Fixpoint set_nth {A} (i : nat) (x : A) (l : list A) : list A :=
  match l, i with
  | [], _ => []
  | _ :: l, 0 => x :: l
  | y :: l, S i => y :: set_nth i x l
  end.

Definition move (s : st) (i : nat) (p : pc) : st :=
  match nth_error (calls s) i with
  | Some x => set_calls s (set_nth i (mkCall (obj x) p (late x)) (calls s))
  | None => s
  end.

(** backpressure.py:59-67, 108-117: nobody leases the slot. *)
Definition available (l : list (nat * nat)) (b : nat) : bool := forallb (fun x => negb (snd x =? b)) l.

(** backpressure.py:128-140, 29-37. *)
Definition lease (s : st) (c b : nat) : st :=
  mkSt (running s) (next s) ((c, b) :: filter (fun x => negb ((fst x =? c) && (snd x =? b))) (leases s))
       (mem s) (calls s) (ch s).

(** backpressure.py:142-177, 39-48: the waiting calls are woken when the slot becomes free. *)
Definition free (s : st) (c b : nat) : st :=
  let l := filter (fun x => negb ((fst x =? c) && (snd x =? b))) (leases s) in
  let wake x := match at_ x with
                | AtBuffer b' m w =>
                    if (b' =? b) && negb (available (leases s) b) && available l b
                    then mkCall (obj x) (AtBuffer b' m true) (late x) else x
                | _ => x
                end in
  mkSt (running s) (next s) l (mem s) (map wake (calls s)) (ch s).

(** messagechannel.py:347-361, 337-345: put_local and the notification of the subscriber. *)
Definition put_local (s : st) (c m : nat) (o : Obj) : st :=
  let x := ch s c in
  lease (set_ch s c (mkChan (wire x) (upd (cache x) (slot m) (Some (m, Val o))) (queue x ++ [m]) (held x) (acks x) (got x)
                            (up x))) c (slot m).

Definition is_local (c : nat) : bool := match kind c with InProcess => true | _ => false end.
Definition is_shm (c : nat) : bool := match kind c with SharedMemory => true | _ => false end.

(** pubclient.py:568-569 *)
Definition finish (s : st) (i : nat) : st :=
  let s := move s i Returned in mkSt (running s) (S (next s)) (leases s) (mem s) (calls s) (ch s).

Definition send (s : st) (c : nat) (f : frame) : st :=
  let x := ch s c in
  set_ch s c (mkChan (wire x ++ [f]) (cache x) (queue x) (held x) (acks x) (got x) (up x)).

(** pubclient.py:535-566: the loop over the channels, up to the next drain(). *)
Fixpoint write_next (s : st) (i b m header : nat) (o : Obj) (todo : list nat) : st :=
  match todo with
  | [] => finish s i
  | c :: todo =>
      match kind c with
      | InProcess => write_next s i b m header o todo
      | SharedMemory => move (send s c (FShm m)) i (AtDrain b m header c todo)
      | Tcp => move (send s c (FTcp m header o)) i (AtDrain b m header c todo)
      end
  end.

(** pubclient.py:503-566: from the local delivery to the first drain(); [b] and [m] were computed before the wait for the
    slot (487-488), the number that is put into the header and given to put_local is _msg_id as it is now. *)
Definition go (s : st) (i b m : nat) (o : Obj) : st :=
  let s := fold_left (fun s c => if is_local c then put_local s c (next s) o else s) chans s in
  if forallb is_local chans then finish s i
  else
    let header := next s in
    let s := if existsb is_shm chans
             then mkSt (running s) (next s) (leases s) (upd (mem s) b (Some (header, o))) (calls s) (ch s)
             else s in
    write_next s i b m header o chans.

(** pubclient.py:487-497: what follows the gate. *)
Definition enter (s : st) (i : nat) (o : Obj) : st :=
  let b := slot (next s) in
  if available (leases s) b then go s i b (next s) o else move s i (AtBuffer b (next s) false).

Inductive label :=
| Call (o : Obj)      (* broadcast(o) is called *)
| Start (i : nat)     (* the task of call [i] begins *)
| Wake (i : nat)      (* it goes on at the gate or at the buffer *)
| Drained (i : nat)   (* drain() returns *)
| GiveUp (i : nat)    (* the caller's time-out expires (sync.py:21-25); it sees TimeoutError *)
| Cancel (i : nat)    (* and, later, the task is cancelled *)
| Pause | Resume
| Arrive (c : nat)    (* the channel reads a frame *)
| Take (c : nat)      (* the subscriber gets a message *)
| Release (c : nat)   (* and has handled it *)
| Ack (c : nat).      (* the publisher reads an acknowledgement *)

(** messagechannel.py:304, 337-345 *)
Definition notify (x : chan) (w : list frame) (m : nat) (k : nat -> option (nat * handle)) : chan :=
  mkChan w k (queue x ++ [m]) (held x) (acks x) (got x) (up x).
(** 289, 296, 312-320: an assertion fails; the connection is closed. *)
Definition failed (x : chan) : chan := mkChan [] (fun _ => None) (queue x) (held x) (acks x) (got x) false.

Definition step (s : st) (a : label) : option st :=
  match a with
  | Call o => Some (set_calls s (calls s ++ [mkCall o Called false]))
  | Start i =>
      match nth_error (calls s) i with
      | Some (mkCall o Called _) => Some (if running s then enter s i o else move s i (AtGate false))
      | _ => None
      end
  | Wake i =>
      match nth_error (calls s) i with
      | Some (mkCall o (AtGate true) _) => Some (enter s i o)
      | Some (mkCall o (AtBuffer b m true) _) => Some (go s i b m o)
      | _ => None
      end
  | Drained i =>
      match nth_error (calls s) i with
      | Some (mkCall o (AtDrain b m h c todo) _) => Some (write_next (lease s c b) i b m h o todo)
      | _ => None
      end
  | GiveUp i =>
      match nth_error (calls s) i with
      | Some (mkCall o p false) =>
          match p with
          | Returned => None
          | _ => Some (set_calls s (set_nth i (mkCall o p true) (calls s)))
          end
      | _ => None
      end
  | Cancel i =>
      match nth_error (calls s) i with
      | Some (mkCall o p true) =>
          match p with
          | Returned | Cancelled => None
          | _ => Some (move s i Cancelled)
          end
      | _ => None
      end
  | Pause => Some (mkSt false (next s) (leases s) (mem s) (calls s) (ch s))
  | Resume =>
      Some (mkSt true (next s) (leases s) (mem s)
              (map (fun x => match at_ x with AtGate _ => mkCall (obj x) (AtGate true) (late x) | _ => x end) (calls s)) (ch s))
  | Arrive c =>
      let x := ch s c in
      if up x then
        match wire x with
        | FShm m :: w =>
            match mem s (slot m) with
            | Some (h, _) =>
                Some (set_ch s c (if h =? m then notify x w m (upd (cache x) (slot m) (Some (m, View (slot m)))) else failed x))
            | None => Some (set_ch s c (failed x))
            end
        | FTcp m h o :: w =>
            Some (set_ch s c (if h =? m then notify x w m (upd (cache x) (slot m) (Some (m, Val o))) else failed x))
        | [] => None
        end
      else None
  | Take c =>
      let x := ch s c in
      match queue x, held x with
      | m :: q, None =>
          match cache x (slot m) with
          | Some (m', h) =>
              if m' =? m then
                let o := match h with
                         | Val o => Some o
                         | View b => match mem s b with Some (_, o) => Some o | None => None end
                         end in
                Some (set_ch s c (mkChan (wire x) (cache x) q (Some m) (acks x) (got x ++ [o]) (up x)))
              else Some (set_ch s c (mkChan (wire x) (cache x) q None (acks x) (got x ++ [None]) (up x)))
          | None => Some (set_ch s c (mkChan (wire x) (cache x) q None (acks x) (got x ++ [None]) (up x)))
          end
      | _, _ => None
      end
  | Release c =>
      let x := ch s c in
      match held x with
      | Some m =>
          match cache x (slot m) with
          | Some (m', _) =>
              if m' =? m then
                let k := upd (cache x) (slot m) None in
                if is_local c then Some (free (set_ch s c (mkChan (wire x) k (queue x) None (acks x) (got x) (up x))) c (slot m))
                else Some (set_ch s c (mkChan (wire x) k (queue x) None (acks x ++ [m]) (got x) (up x)))
              else Some (set_ch s c (mkChan (wire x) (cache x) (queue x) None (acks x) (got x) (up x)))
          | None => Some (set_ch s c (mkChan (wire x) (cache x) (queue x) None (acks x) (got x) (up x)))
          end
      | None => None
      end
  | Ack c =>
      let x := ch s c in
      match acks x with
      | m :: r => Some (free (set_ch s c (mkChan (wire x) (cache x) (queue x) (held x) r (got x) (up x))) c (slot m))
      | [] => None
      end
  end.

Fixpoint run (s : st) (l : list label) : option st :=
  match l with
  | [] => Some s
  | a :: l => match step s a with Some s => run s l | None => None end
  end.

End Overlap.
