(** C11: backpressure accounting. [held n h u i] (BackpressureSpec): looking back through the history
    [h] (most recent first), client [u] leased buffer [i] and has not freed it since. *)
From Coq Require Import List ZArith Arith Bool.
From Verif Require Import BackpressureModel BackpressureSpec BackpressureProofs.
Import ListNotations.

Theorem C11_available_iff_nobody_holds : forall n ops i, i < n ->
  (bp_available (bp_run n ops) i = Some true <-> forall u, ~ held n (rev ops) u i) /\
  bp_available (bp_run n ops) i = Some (bp_wait_passes (bp_run n ops) i).
Proof. exact available_iff. Qed.

Theorem C11_all_clear_iff_nothing_held : forall n ops,
  (bp_sync_passes (bp_run n ops) = true <-> forall u i, ~ held n (rev ops) u i) /\
  bp_is_empty (bp_run n ops) = bp_sync_passes (bp_run n ops).
Proof. exact all_empty_iff. Qed.

Theorem C11_pressure_is_number_of_held_buffers : forall n ops,
  exists busy, NoDup busy /\ (forall i, In i busy <-> exists u, held n (rev ops) u i) /\
    pressure (bp_run n ops) = Z.of_nat (length busy).
Proof. exact pressure_counts. Qed.

Theorem C11_release_of_unheld_changes_nothing : forall n ops u o,
  (forall i, match o with None => True | Some j => i = j end -> ~ held n (rev ops) u i) ->
  bp_run n (ops ++ [Free u o]) = bp_run n ops.
Proof. exact free_not_held_run. Qed.

Example C11_case :
  let ops := [Lease 1 0; Lease 2 0; Lease 1 2; Free 1 (Some 0); Free 1 (Some 0)] in
  held 3 (rev ops) 2 0 /\ ~ held 3 (rev ops) 1 0 /\
  bp_available (bp_run 3 ops) 0 = Some false /\ bp_available (bp_run 3 ops) 1 = Some true /\
  pressure (bp_run 3 ops) = 2%Z /\ bp_sync_passes (bp_run 3 (ops ++ [Free 1 None; Free 2 (Some 0)])) = true.
Proof. cbn. repeat split; try reflexivity; intuition (try discriminate); auto with arith. Qed.

Print Assumptions C11_available_iff_nobody_holds.
Print Assumptions C11_all_clear_iff_nothing_held.
Print Assumptions C11_pressure_is_number_of_held_buffers.
Print Assumptions C11_release_of_unheld_changes_nothing.
