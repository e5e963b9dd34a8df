(** Model of /repo/src/ezmsg/core/messagecache.py. *)
From Coq Require Import List Arith Bool.
From Verif Require Import BackpressureModel.
Import ListNotations.

Section Cache.
Context {Obj : Type}.

(** messagecache.py:8-13 [CacheEntry]. [memory] names the memoryview (and its unpickling context)
    whose lifetime the entry owns; [None] for objects put locally. *)
Record entry := { e_obj : Obj; e_id : nat; e_mem : option nat }.

(** messagecache.py:20-39; [released] is a ghost log of the memoryviews released so far. *)
Record cache := { slots : list (option entry); released : list nat }.

Definition cache_new (n : nat) : cache := {| slots := repeat None n; released := [] |}.

(** 41-42 [_buf_idx] (ZeroDivisionError for an empty cache is not modelled: num_buffers >= 1). *)
Definition buf_idx (c : cache) (m : nat) : nat := m mod length (slots c).

Definition slot (c : cache) (i : nat) : option entry :=
  match nth_error (slots c) i with Some e => e | None => None end.

(** 44-55 [__getitem__]; [None] is CacheMiss. *)
Definition cache_get (c : cache) (m : nat) : option Obj :=
  match slot c (buf_idx c m) with
  | None => None
  | Some e => if Nat.eqb (e_id e) m then Some (e_obj e) else None
  end.

(** 57-61 [keys]. *)
Definition cache_keys (c : cache) : list nat :=
  flat_map (fun s => match s with Some e => [e_id e] | None => [] end) (slots c).

(** 107-117 [_release]. *)
Definition release_slot (c : cache) (i : nat) : cache :=
  match slot c i with
  | None => c
  | Some e => {| slots := set_nth i None (slots c);
                 released := match e_mem e with Some t => t :: released c | None => released c end |}
  end.

(** 102-105 [_put], used by [put_local] (63-79) and [put_from_mem] (81-100). The reading of the
    message out of the memory is [MessageMarshal] (MarshalModel); if it raises, [_put] is not reached. *)
Definition cache_put (c : cache) (e : entry) : cache :=
  let i := buf_idx c (e_id e) in
  let c' := release_slot c i in
  {| slots := set_nth i (Some e) (slots c'); released := released c' |}.

(** 119-131 [release]; the flag is [false] for CacheMiss. *)
Definition cache_release (c : cache) (m : nat) : cache * bool :=
  let i := buf_idx c m in
  match slot c i with
  | None => (c, false)
  | Some e => if Nat.eqb (e_id e) m then (release_slot c i, true) else (c, false)
  end.

(** 133-138 [clear]. *)
Definition cache_clear (c : cache) : cache :=
  fold_left release_slot (seq 0 (length (slots c))) c.

Inductive cache_op := Put (m : nat) (o : Obj) (mem : option nat) | Release (m : nat) | Clear.

Definition cache_step (c : cache) (op : cache_op) : cache :=
  match op with
  | Put m o t => cache_put c {| e_obj := o; e_id := m; e_mem := t |}
  | Release m => fst (cache_release c m)
  | Clear => cache_clear c
  end.

Definition cache_run (n : nat) (ops : list cache_op) : cache := fold_left cache_step ops (cache_new n).
End Cache.

Arguments entry : clear implicits.
Arguments cache : clear implicits.
Arguments cache_op : clear implicits.
