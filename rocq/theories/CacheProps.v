(** C12: the message cache. [expected n h m] (CacheSpec): what the most recent operation touching [m]
    or its slot left there. *)
From Coq Require Import List Arith Bool Permutation.
From Verif Require Import CacheModel CacheSpec CacheProofs.
Import ListNotations.

Theorem C12_lookup_is_latest_or_miss : forall Obj n (ops : list (cache_op Obj)) m, 0 < n ->
  cache_get (cache_run n ops) m = expected n (rev ops) m.
Proof. exact @lookup_expected. Qed.

(** In particular an object is only ever returned under the id it was stored under. *)
Theorem C12_never_another_message : forall Obj n (ops : list (cache_op Obj)) m o, 0 < n ->
  cache_get (cache_run n ops) m = Some o -> exists t, In (Put m o t) ops.
Proof.
  intros Obj n ops m o Hn H. rewrite lookup_expected in H by exact Hn.
  destruct (expected_put _ _ _ _ H) as [t Ht]. exists t. now apply in_rev.
Qed.

(** At most one message per slot, and [keys()] lists exactly the messages a lookup finds. *)
Theorem C12_one_message_per_slot : forall Obj n (ops : list (cache_op Obj)), 0 < n ->
  (forall m, In m (cache_keys (cache_run n ops)) <-> expected n (rev ops) m <> None) /\
  (forall m k, In m (cache_keys (cache_run n ops)) -> In k (cache_keys (cache_run n ops)) -> m mod n = k mod n -> m = k) /\
  NoDup (cache_keys (cache_run n ops)) /\ length (cache_keys (cache_run n ops)) <= n.
Proof. exact @keys_exact. Qed.

Theorem C12_release_absent_fails_unchanged : forall Obj n (ops : list (cache_op Obj)) m, 0 < n ->
  expected n (rev ops) m = None -> cache_release (cache_run n ops) m = (cache_run n ops, false).
Proof. exact @release_absent. Qed.

Theorem C12_release_present_succeeds : forall Obj n (ops : list (cache_op Obj)) m o, 0 < n ->
  expected n (rev ops) m = Some o -> snd (cache_release (cache_run n ops) m) = true.
Proof. exact @release_present. Qed.

(** Every memoryview handed to the cache is either still owned or was released, exactly once. *)
Theorem C12_memory_released_once : forall Obj n (ops : list (cache_op Obj)), 0 < n ->
  Permutation (released (cache_run n ops) ++ owned (cache_run n ops)) (handed ops).
Proof. exact @run_mem. Qed.

Theorem C12_clear_releases_everything : forall Obj n (ops : list (cache_op Obj)), 0 < n ->
  owned (cache_run n (ops ++ [Clear])) = [] /\ cache_keys (cache_run n (ops ++ [Clear])) = [].
Proof. exact @clear_owns_nothing. Qed.

Example C12_case :
  let ops := [Put 0 10 (Some 100); Put 1 11 None; Put 2 12 (Some 102); Release 0; Put 5 15 (Some 105)] in
  0 < 2 /\ map (cache_get (cache_run 2 ops)) [0; 1; 2; 5] = [None; None; Some 12; Some 15] /\
  released (cache_run 2 ops) = [100] /\ cache_keys (cache_run 2 ops) = [2; 5] /\
  expected 2 (rev ops) 1 = None.
Proof. repeat split; auto. Qed.

Print Assumptions C12_lookup_is_latest_or_miss.
Print Assumptions C12_never_another_message.
Print Assumptions C12_one_message_per_slot.
Print Assumptions C12_release_absent_fails_unchanged.
Print Assumptions C12_release_present_succeeds.
Print Assumptions C12_memory_released_once.
Print Assumptions C12_clear_releases_everything.
