(** C97: what a zero-copy block of a SyncContext holds, and when it lets go. *)
From Coq Require Import List Arith Bool Lia.
From Verif Require Import LeaseModel LeaseSpec LeaseProofs.
Import ListNotations.

(** Inside a block the message it was given is held: it has been taken and has not been released. *)
Theorem C97_held_inside : forall es s lim m, history es s -> thread s = Inside lim m -> holding s (current s) m.
Proof. exact held_inside. Qed.
Print Assumptions C97_held_inside.

(** A message that arrived waits, or one block took it, in the order of arrival; a block takes at most one message
    and releases at most once, and only what it took. *)
Theorem C97_taken_and_released_once : forall es s, history es s ->
  arrived es = map snd (takes s) ++ queue s /\
  NoDup (map fst (takes s)) /\ NoDup (releases s) /\ (forall j, In j (releases s) -> In j (map fst (takes s))).
Proof.
  intros es s H. pose proof (inv_run _ _ H) as V. split; [apply (v_arr _ _ V)|]. split; [apply (v_nd _ _ V)|].
  split; [apply (v_ndr _ _ V)|]. intros j K. apply (v_rel _ _ V) in K as [m G]. apply in_map_iff. exists (j, m).
  split; [reflexivity|]. apply (v_take _ _ V). now right.
Qed.
Print Assumptions C97_taken_and_released_once.

(** A block that was left has released the message it showed. *)
Theorem C97_left_released : forall es s j m, history es s -> nth_error (outcomes s) j = Some (Left m) ->
  In (j, m) (takes s) /\ In j (releases s).
Proof.
  intros es s j m H E. pose proof (inv_run _ _ H) as V. pose proof (v_past _ _ V j _ E) as P. cbn in P.
  split; [apply (v_take _ _ V); now right|apply (v_rel _ _ V); now exists m].
Qed.
Print Assumptions C97_left_released.

(** A message is held by the block in progress, or by a block that was given up because of a time-out. *)
Theorem C97_held_by : forall es s j m, history es s -> holding s j m ->
  (j = current s /\ thread s <> Outside) \/ timed_out s j.
Proof. exact held_by. Qed.
Print Assumptions C97_held_by.

(** Without time-outs nothing is held outside the blocks. *)
Theorem C97_no_timeouts_nothing_held : forall es s j m, history es s -> no_timeouts es -> thread s = Outside -> ~ holding s j m.
Proof.
  intros es s j m H N T K. destruct (held_by _ _ _ _ H K) as [[_ X]|X]; [contradiction|].
  destruct (no_timeouts_run es s H N) as [_ [_ C]]. now apply (C j).
Qed.
Print Assumptions C97_no_timeouts_nothing_held.

(** Whatever has timed out before, a block that is being left can be left: no further message is needed, and the
    message is released. *)
Theorem C97_can_be_left : forall es s lim m, history es s -> thread s = Leaving lim m ->
  exists es' s', forallb goes_on es' = true /\ steps s es' = Some s' /\ thread s' = Outside /\
    outcomes s' = outcomes s ++ [Left m] /\ In (current s) (releases s').
Proof. exact leaves. Qed.
Print Assumptions C97_can_be_left.

(** Whatever has timed out before, a block can be entered once a message waits. *)
Theorem C97_can_be_entered : forall es s lim, history es s -> thread s = Entering lim -> queue s <> [] ->
  exists es' s' m, forallb goes_on es' = true /\ steps s es' = Some s' /\ thread s' = Inside lim m.
Proof. exact enters. Qed.
Print Assumptions C97_can_be_entered.

(** Between blocks, the loop and the garbage collector can release all that is still held, and take nothing. *)
Theorem C97_cleaned_by_collection : forall es s, history es s -> thread s = Outside ->
  exists es' s', forallb cleans es' = true /\ steps s es' = Some s' /\ thread s' = Outside /\ outcomes s' = outcomes s /\
    queue s' = queue s /\ takes s' = takes s /\ forall j m, ~ holding s' j m.
Proof. exact cleaned. Qed.
Print Assumptions C97_cleaned_by_collection.

Definition entry_late : list event :=
  [Arrive 7; Enter true; Loop; Run Entry 0; TimeOut; GiveUp; Loop].
Definition exit_late : list event :=
  [Arrive 7; Enter true; Loop; Run Entry 0; Deliver Entry 0; Return; Leave; TimeOut; GiveUp; Loop; Loop].
Definition exit_done : list event :=
  [Arrive 7; Enter true; Loop; Run Entry 0; Deliver Entry 0; Return; Leave; Loop; Run Exit 0; TimeOut; GiveUp; Loop].

(** The state a history ends in. *)
Definition end_of (es : list event) : state := match steps start es with Some s => s | None => start end.

(** C97 finding: a `with ctx.recv_zero_copy(timeout=...)` that raises TimeoutError without running its body may have taken
    a message all the same: when the message arrives at the last moment the loop's task ends although the waiting thread
    gives up. The message is lost to the program (no later block shows it) and stays held, which keeps back the publisher,
    also after the loop has dealt with the cancellation. *)
Theorem C97_not_entered_holds_nothing_refuted :
  ~ (forall es s j m, history es s -> thread s = Outside -> jobs s = [] -> nth_error (outcomes s) j = Some NotEntered ->
       ~ holding s j m).
Proof.
  intros H. apply (H entry_late (end_of entry_late) 0 7); try (vm_compute; reflexivity).
  split; [now left|intros []].
Qed.
Print Assumptions C97_not_entered_holds_nothing_refuted.

(** C97 finding: the time-out given for waiting for a message is also the time-out of leaving the block. A block whose exit
    times out raises TimeoutError after its body has run, and cancelling the exit leaves the message held: nothing but the
    collection of the generator releases it. *)
Theorem C97_block_over_releases_refuted :
  ~ (forall es s j m, history es s -> thread s = Outside -> jobs s = [] -> nth_error (outcomes s) j = Some (NotLeft m) ->
       ~ holding s j m).
Proof.
  intros H. apply (H exit_late (end_of exit_late) 0 7); try (vm_compute; reflexivity).
  split; [now left|intros []].
Qed.
Print Assumptions C97_block_over_releases_refuted.

(** C97 finding: nor does TimeoutError from leaving a block mean that the message is still held: the exit may have ended
    just before the time-out, so a program cannot tell from the error. *)
Theorem C97_exit_error_means_held_refuted :
  ~ (forall es s j m, history es s -> thread s = Outside -> nth_error (outcomes s) j = Some (NotLeft m) -> holding s j m).
Proof.
  intros H. apply (proj2 (H exit_done (end_of exit_done) 0 7 ltac:(vm_compute; reflexivity) ltac:(vm_compute; reflexivity)
    ltac:(vm_compute; reflexivity))). now left.
Qed.
Print Assumptions C97_exit_error_means_held_refuted.

(** Two blocks without a time-out; a block whose entry timed out before any message, then one that gets the message;
    a late entry, then a block that gets the next message, then the collection of what the late entry took. *)
Example C97_case :
  (exists s, history [Arrive 1; Arrive 2; Enter false; Loop; Run Entry 0; Deliver Entry 0; Return; Leave; Loop; Run Exit 0;
                      Deliver Exit 0; Return; Enter false; Loop; Run Entry 1; Deliver Entry 1; Return] s /\
     thread s = Inside false 2 /\ outcomes s = [Left 1] /\ takes s = [(0, 1); (1, 2)] /\ releases s = [0] /\ queue s = []) /\
  (exists s, history [Enter true; Loop; TimeOut; GiveUp; Loop; Enter true; Arrive 7; Loop; Run Entry 1; Deliver Entry 1; Return;
                      Leave; Loop] s /\
     thread s = Leaving true 7 /\ outcomes s = [NotEntered] /\ takes s = [(1, 7)] /\ releases s = []) /\
  (exists s, history (entry_late ++ [Arrive 8; Enter true; Loop; Run Entry 1; Deliver Entry 1; Return; Leave; Loop; Run Exit 1;
                      Deliver Exit 1; Return; Collect 0; Loop]) s /\
     thread s = Outside /\ outcomes s = [NotEntered; Left 8] /\ takes s = [(0, 7); (1, 8)] /\ releases s = [1; 0]).
Proof.
  split; [|split]; (eexists; split; [vm_compute; reflexivity|vm_compute; repeat split; reflexivity]).
Qed.
