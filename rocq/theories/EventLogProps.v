(* C31, C32: the settings and topology event logs.  Both logs are instances of
   EventLogModel.v; the theorems hold for every kind of event contents [A],
   every retention limit and every history of appended events, subscriptions,
   departures and writes. *)

From Coq Require Import String List Arith Lia.
From Verif Require Import Dict EventLogModel EventLogSpec EventLogProofs.
Import ListNotations.
Local Open Scope string_scope.
Local Open Scope nat_scope.
Local Open Scope list_scope.

(* ---- C31 ---- *)

(** C31: the n-th event ever appended has number n, and the log retains the most
    recent ones within the limit, in order. *)
Theorem C31_retained_is_the_latest_suffix :
  forall (A : Type) (limit : nat) (ops : list (log_op A)),
    l_seq (after_ops limit ops) = length (appended ops) /\
    l_events (after_ops limit ops) = lastn limit (numbered (appended ops)).
Proof. intros A limit ops. exact (proj2 (log_contents limit ops)). Qed.

(** C31: a query for events after number n returns exactly the retained events
    with larger numbers, in order; as long as fewer than [limit] events were
    appended after number n, these are all the events n+1, n+2, ... *)
Theorem C31_query_returns_the_later_events :
  forall (A : Type) (limit : nat) (ops : list (log_op A)) (n : nat),
    events_after n (after_ops limit ops) =
      filter (fun e => (n <? fst e)%nat) (lastn limit (numbered (appended ops))) /\
    (length (appended ops) <= n + limit ->
     events_after n (after_ops limit ops) = skipn n (numbered (appended ops))).
Proof.
  intros A limit ops n. split; [|apply query_complete].
  unfold events_after. destruct (log_contents limit ops) as [_ [_ ->]]. reflexivity.
Qed.

Example C31_case :
  let ops := [Append "a"; Append "b"; Append "c"; Append "d"] in
  l_events (after_ops 3 ops) = [(2, "b"); (3, "c"); (4, "d")] /\
  events_after 2 (after_ops 3 ops) = [(3, "c"); (4, "d")] /\
  events_after 0 (after_ops 3 ops) = [(2, "b"); (3, "c"); (4, "d")].
Proof. vm_compute; auto. Qed.

(* ---- C32 ---- *)

(** C32: what a subscriber has been sent, followed by what waits for it, has
    strictly increasing numbers (no repetition, no reordering), every event in
    it is one it is due, and what waits are the most recent ones it is due. *)
Theorem C32_ordered_without_repetition :
  forall (A : Type) (limit id after : nat) (before later : list (log_op A)),
    stays id later ->
    let L := after_ops limit (before ++ Subscribe id after :: later) in
    increasing (written L id ++ waiting L id) /\
    (forall e, In e (written L id ++ waiting L id) -> In e (due limit before after later)) /\
    exists older, due limit before after later = older ++ waiting L id /\
                  forall e, In e (written L id) -> In e older.
Proof.
  intros A limit id after before later ST L.
  destruct (SubInv_all limit id after before later ST) as [_ [d [DQ WD]] _ INC _].
  split; [exact INC|split; [|exists d; split; assumption]].
  intros e I. change (due limit before after later) with (D limit after before later).
  rewrite DQ. apply in_app_iff. apply in_app_iff in I as [I|I]; auto.
Qed.

(** C32: a subscriber that keeps up (there was room in its queue whenever an
    event was appended) gets every event it is due. *)
Theorem C32_complete_if_it_keeps_up :
  forall (A : Type) (limit id after : nat) (before later : list (log_op A)),
    stays id later ->
    (forall p1 a p2, later = p1 ++ Append a :: p2 ->
       length (waiting (after_ops limit (before ++ Subscribe id after :: p1)) id) < queue_cap) ->
    let L := after_ops limit (before ++ Subscribe id after :: later) in
    written L id ++ waiting L id = due limit before after later.
Proof. exact @keeps_up. Qed.

(** C32: an event is lost only as the oldest of a full queue of undelivered
    events, pushed out by a newer one. *)
Theorem C32_only_the_oldest_undelivered_is_lost :
  forall (A : Type) (limit id after : nat) (before later : list (log_op A)) (e : event A),
    stays id later ->
    let L := after_ops limit (before ++ Subscribe id after :: later) in
    In e (due limit before after later) ->
    ~ In e (written L id ++ waiting L id) ->
    exists p1 a p2 r,
      later = p1 ++ Append a :: p2 /\
      waiting (after_ops limit (before ++ Subscribe id after :: p1)) id = e :: r /\
      length (e :: r) = queue_cap.
Proof.
  intros A limit id after before later e ST L I N.
  destruct (SubInv_all limit id after before later ST) as [_ _ _ _ LOST].
  destruct (LOST e I) as [H|H]; [contradiction|exact H].
Qed.

Example C32_case :
  let before := [Append "a"; Append "b"; Append "c"] in
  let later := [Send 7; Append "d"; Subscribe 8 0; Send 7; Send 8; Append "e"; Unsubscribe 8] in
  let L := after_ops 2 (before ++ Subscribe 7 1 :: later) in
  due 2 before 1 later = [(2, "b"); (3, "c"); (4, "d"); (5, "e")] /\
  written L 7 = [(2, "b"); (3, "c")] /\ waiting L 7 = [(4, "d"); (5, "e")].
Proof. vm_compute; auto. Qed.

Example C32_stays_case : stays 7 [Send 7; Append "d"; Subscribe 8 0; Unsubscribe 8].
Proof.
  intros op I. repeat (destruct I as [<-|I]; [split; [|intros n]; discriminate|]). destruct I.
Qed.

Print Assumptions C31_retained_is_the_latest_suffix.
Print Assumptions C31_query_returns_the_later_events.
Print Assumptions C32_ordered_without_repetition.
Print Assumptions C32_complete_if_it_keeps_up.
Print Assumptions C32_only_the_oldest_undelivered_is_lost.
