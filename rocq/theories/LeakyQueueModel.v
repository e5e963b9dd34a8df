(** Model of LeakyQueue (/repo/src/ezmsg/core/messagechannel.py:29-67) over asyncio.Queue, and of the
    queue clean-up in [Channel.unregister_client] (messagechannel.py:445-467). *)
From Coq Require Import List ZArith Arith Bool.
Import ListNotations.

Section Queue.
Context {A : Type}.

(** What left the queue: given to a reader, or handed to [on_drop]. *)
Inductive removal := Got (x : A) | Dropped (x : A).

(** [maxsize] as given; asyncio.Queue treats [maxsize <= 0] as unbounded. [gone] is a ghost log of
    removals, oldest first. *)
Record queue := { maxsize : Z; items : list A; gone : list removal }.

Definition q_new (maxsize : Z) : queue := {| maxsize := maxsize; items := []; gone := [] |}.

(** asyncio.Queue.full. *)
Definition q_full (q : queue) : bool :=
  if (maxsize q <=? 0)%Z then false else (maxsize q <=? Z.of_nat (length (items q)))%Z.

(** messagechannel.py:48-55 [_drop_oldest]; QueueEmpty is ignored. The callback runs after the item has
    left the queue; callbacks that put into the same queue are not modelled (the one used, subclient.py:144-158,
    does not). *)
Definition q_drop_oldest (q : queue) : queue :=
  match items q with
  | [] => q
  | x :: r => {| maxsize := maxsize q; items := r; gone := gone q ++ [Dropped x] |}
  end.

(** messagechannel.py:57-67 [put]/[put_nowait]. After dropping, the queue is not full (maxsize >= 1), so
    asyncio's [put] does not wait and [put_nowait] does not raise QueueFull. [None] would be QueueFull/waiting. *)
Definition q_put (x : A) (q : queue) : option queue :=
  let q' := if q_full q then q_drop_oldest q else q in
  if q_full q' then None
  else Some {| maxsize := maxsize q'; items := items q' ++ [x]; gone := gone q' |}.

(** asyncio.Queue.get_nowait (and a [get] that completes); [None] is QueueEmpty. *)
Definition q_get (q : queue) : option (A * queue) :=
  match items q with
  | [] => None
  | x :: r => Some (x, {| maxsize := maxsize q; items := r; gone := gone q ++ [Got x] |})
  end.

Inductive q_op := QPut (x : A) | QGet.

Definition q_step (q : queue) (o : q_op) : queue :=
  match o with
  | QPut x => match q_put x q with Some q' => q' | None => q end
  | QGet => match q_get q with Some (_, q') => q' | None => q end
  end.

Definition q_run (m : Z) (ops : list q_op) : queue := fold_left q_step ops (q_new m).

(** messagechannel.py:452-459: on unregistering, every queued notification is taken out once and put
    back unless it belongs to the channel being left ([mine]). [n] is the queue size at the start. *)
Fixpoint q_purge (mine : A -> bool) (n : nat) (q : queue) : queue :=
  match n with
  | O => q
  | S n' =>
      match items q with
      | [] => q
      | x :: r =>
          let q' := {| maxsize := maxsize q; items := r; gone := gone q |} in
          if mine x then q_purge mine n' q'
          else match q_put x q' with Some q'' => q_purge mine n' q'' | None => q_purge mine n' q' end
      end
  end.
End Queue.
Arguments removal : clear implicits.
Arguments queue : clear implicits.
Arguments q_op : clear implicits.
