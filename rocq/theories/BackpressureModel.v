(** Model of /repo/src/ezmsg/core/backpressure.py. Clients (UUIDs) are natural numbers. *)
From Coq Require Import List ZArith Arith Bool.
Import ListNotations.

(** backpressure.py:8-27 [BufferLease]: the lease set (duplicate-free list) and the [empty] event. *)
Record buffer_lease := { leases : list nat; empty : bool }.

Definition new_lease : buffer_lease := {| leases := []; empty := true |}.

Definition mem (u : nat) (l : list nat) : bool := existsb (Nat.eqb u) l.

(** backpressure.py:29-37 [add] ([set.add]: no duplicate). *)
Definition lease_add (u : nat) (b : buffer_lease) : buffer_lease :=
  {| leases := if mem u (leases b) then leases b else u :: leases b; empty := false |}.

(** backpressure.py:39-48 [remove]; [None] is KeyError ([set.remove] of an absent element). *)
Definition lease_remove (u : nat) (b : buffer_lease) : option buffer_lease :=
  if mem u (leases b) then
    let l := filter (fun v => negb (Nat.eqb u v)) (leases b) in
    Some {| leases := l; empty := match l with [] => true | _ => empty b end |}
  else None.

(** backpressure.py:70-96 [Backpressure]. *)
Record backpressure := { buffers : list buffer_lease; all_empty : bool; pressure : Z }.

Definition bp_new (num_buffers : nat) : backpressure :=
  {| buffers := repeat new_lease num_buffers; all_empty := true; pressure := 0 |}.

(** backpressure.py:98-106 [is_empty]. *)
Definition bp_is_empty (p : backpressure) : bool := (pressure p =? 0)%Z.

Fixpoint set_nth {A} (i : nat) (x : A) (l : list A) : list A :=
  match l, i with
  | [], _ => []
  | _ :: l', O => x :: l'
  | y :: l', S i' => y :: set_nth i' x l'
  end.

(** backpressure.py:108-117 [available]; [None] is IndexError. *)
Definition bp_available (p : backpressure) (i : nat) : option bool :=
  match nth_error (buffers p) i with Some b => Some (empty b) | None => None end.

(** backpressure.py:128-140 [lease]. An index out of range is IndexError: nothing changes. *)
Definition bp_lease (u i : nat) (p : backpressure) : backpressure :=
  match nth_error (buffers p) i with
  | None => p
  | Some b =>
      {| buffers := set_nth i (lease_add u b) (buffers p);
         all_empty := false;
         pressure := if empty b then (pressure p + 1)%Z else pressure p |}
  end.

(** backpressure.py:142-156 [_free]. *)
Definition bp_free1 (u : nat) (p : backpressure) (i : nat) : backpressure :=
  match nth_error (buffers p) i with
  | None => p
  | Some b =>
      match lease_remove u b with
      | None => p
      | Some b' =>
          {| buffers := set_nth i b' (buffers p); all_empty := all_empty p;
             pressure := if empty b' then (pressure p - 1)%Z else pressure p |}
      end
  end.

(** backpressure.py:158-177 [free]. With an index out of range Python raises IndexError before the
    final [if]; the final [if] would not change anything either (it only re-sets a set event). *)
Definition bp_free (u : nat) (i : option nat) (p : backpressure) : backpressure :=
  let p' := match i with
            | None => fold_left (bp_free1 u) (seq 0 (length (buffers p))) p
            | Some i => bp_free1 u p i
            end in
  {| buffers := buffers p'; pressure := pressure p';
     all_empty := if bp_is_empty p' then true else all_empty p' |}.

Inductive bp_op := Lease (u i : nat) | Free (u : nat) (i : option nat).

Definition bp_step (p : backpressure) (o : bp_op) : backpressure :=
  match o with Lease u i => bp_lease u i p | Free u i => bp_free u i p end.

Definition bp_run (n : nat) (ops : list bp_op) : backpressure := fold_left bp_step ops (bp_new n).

(** [wait(i)] (119-126) and [sync()] (179-186) return without suspending exactly when the event is
    set; otherwise they return at the first later moment it is. *)
Definition bp_wait_passes (p : backpressure) (i : nat) : bool :=
  match nth_error (buffers p) i with Some b => empty b | None => false end.
Definition bp_sync_passes (p : backpressure) : bool := all_empty p.
