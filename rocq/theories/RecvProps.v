(** C77: receiving with a time-out in a SyncContext. *)
From Coq Require Import List Arith Bool Lia.
From Verif Require Import SpinSpec RecvModel RecvSpec RecvProofs.
Import ListNotations.

(** What the calls of recv return are messages in the order of arrival, none of them twice. *)
Theorem C77_in_order : forall es s, history es s -> subsequence (returned s) (arrived es).
Proof. exact in_order. Qed.

(** As long as no call times out nothing is lost: between two calls, what has arrived is what was returned followed by
    what is still queued. *)
Theorem C77_nothing_lost_without_timeouts : forall es s, history es s -> thread s = Idle -> no_timeouts es ->
  arrived es = returned s ++ queue s.
Proof.
  intros es s H I N. apply (clean es s H I). intros j J. destruct (no_timeouts_run es s H N) as [_ X]. exfalso. exact (X j J).
Qed.

(** The same if every call that timed out was cancelled before it took a message. *)
Theorem C77_nothing_lost_if_cancelled_in_time : forall es s, history es s -> thread s = Idle -> cancelled_in_time s ->
  arrived es = returned s ++ queue s.
Proof. exact clean. Qed.

(** However badly timed, a call takes one message at most. *)
Theorem C77_one_message_at_most : forall es s, history es s -> thread s = Idle ->
  length (arrived es) <= length (queue s) + length (outcomes s).
Proof. exact at_most_one. Qed.

(** A waiting call can always return as soon as there is a message in the queue, whatever was left behind by calls that
    timed out. *)
Theorem C77_returns : forall es s lim, history es s -> thread s = Waits lim -> queue s <> [] ->
  exists es' s' m, forallb goes_on es' = true /\ steps s es' = Some s' /\ thread s' = Idle /\ outcomes s' = outcomes s ++ [Some m].
Proof. exact returns. Qed.

(** C77 finding: recv(timeout) can lose a message.  If the message arrives when the time-out has just fired, the
    receiving task may complete before the cancellation reaches it; recv raises TimeoutError and the message, already
    taken from the queue and acknowledged to the publisher, is returned by no later call. *)
Theorem C77_timeout_loses_a_message_refuted :
  exists es s m, history es s /\ thread s = Idle /\ jobs s = [] /\ In m (arrived es) /\ ~ In m (queue s) /\ ~ In m (returned s).
Proof.
  exists [Recv true; Loop; TimeOut; Arrive 5; Run 0; GiveUp; Loop]. eexists. exists 5.
  split; [vm_compute; reflexivity|]. split; [reflexivity|]. split; [reflexivity|]. cbn. intuition discriminate.
Qed.

(** C77 finding: the message may even have been delivered to the waiting thread: recv raises TimeoutError although the
    result is in its hands (the future is done when it is to be cancelled). *)
Theorem C77_timeout_discards_a_delivered_message_refuted :
  exists es s m, history es s /\ thread s = Idle /\ jobs s = [] /\ future_of s 0 = FResult m /\ nth_error (outcomes s) 0 = Some None.
Proof.
  exists [Recv true; Loop; TimeOut; Arrive 5; Run 0; Deliver 0; GiveUp]. eexists. exists 5.
  split; [vm_compute; reflexivity|]. repeat split; reflexivity.
Qed.

(** Non-vacuity: a call times out cleanly, the next two return what arrived. *)
Example C77_case :
  let es := [Recv true; Loop; TimeOut; GiveUp; Recv false; Arrive 5; Arrive 6; Arrive 7; Loop; Loop; Run 1; Deliver 1; Return;
             Recv true; Loop; Run 2; Deliver 2; Return] in
  exists s, history es s /\ thread s = Idle /\ cancelled_in_time s /\ returned s = [5; 6] /\ queue s = [7].
Proof.
  eexists. split; [vm_compute; reflexivity|]. split; [reflexivity|]. split; [|split; reflexivity].
  intros [|[|[|[|j]]]]; cbn; try discriminate. reflexivity.
Qed.

Print Assumptions C77_in_order.
Print Assumptions C77_nothing_lost_without_timeouts.
Print Assumptions C77_nothing_lost_if_cancelled_in_time.
Print Assumptions C77_one_message_at_most.
Print Assumptions C77_returns.
Print Assumptions C77_timeout_loses_a_message_refuted.
Print Assumptions C77_timeout_discards_a_delivered_message_refuted.
