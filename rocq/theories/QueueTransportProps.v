(** C13 (leaky queue) and C14 (choice of transport). *)
From Coq Require Import String List ZArith Arith Bool.
From Verif Require Import LeakyQueueModel TransportModel QueueTransportSpec QueueTransportProofs.
Import ListNotations.

(** C13. [puts ops]: everything put, in order. [gone]: what left the queue, in order. *)
Theorem C13_never_over_capacity : forall A m (ops : list (q_op A)), (0 < m)%Z ->
  (Z.of_nat (List.length (items (q_run m ops))) <= m)%Z.
Proof. exact @q_bound. Qed.

(** The queue is the newest part of what was put, in order; everything before it left exactly once,
    in the order it arrived. *)
Theorem C13_queue_is_newest_and_nothing_lost : forall A m (ops : list (q_op A)),
  map removed_item (gone (q_run m ops)) ++ items (q_run m ops) = puts ops.
Proof. exact @q_contents. Qed.

(** A put always succeeds at once; it drops the oldest item exactly when the queue is at capacity. *)
Theorem C13_put_drops_oldest_exactly_when_full : forall A m ops (x : A),
  exists q, q_put x (q_run m ops) = Some q /\ q_run m (ops ++ [QPut x]) = q /\
  gone q = gone (q_run m ops) ++
    (if (0 <? m)%Z && (m =? Z.of_nat (List.length (items (q_run m ops))))%Z
     then match items (q_run m ops) with y :: _ => [Dropped y] | [] => [] end else []).
Proof. exact @q_put_effect. Qed.

Theorem C13_get_takes_oldest : forall A m (ops : list (q_op A)),
  match q_get (q_run m ops) with
  | None => items (q_run m ops) = []
  | Some (x, q) => items (q_run m ops) = x :: items q /\ gone q = gone (q_run m ops) ++ [Got x]
  end.
Proof. exact @q_get_effect. Qed.

(** Leaving one publisher removes exactly that publisher's notifications and drops nothing else. *)
Theorem C13_unregister_removes_only_its_own : forall A m (ops : list (q_op A)) mine,
  let q := q_run m ops in let q' := q_purge mine (List.length (items q)) q in
  items q' = filter (fun x => negb (mine x)) (items q) /\ gone q' = gone q.
Proof. exact @q_purge_run. Qed.

Example C13_case :
  let ops := [QPut 1; QPut 2; QGet; QPut 3; QPut 4; QPut 5] in
  items (q_run 2 ops) = [4; 5] /\ gone (q_run 2 ops) = [Got 1; Dropped 2; Dropped 3] /\ (0 < 2)%Z /\
  items (q_purge (Nat.eqb 4) 2 (q_run 2 ops)) = [5] /\
  items (q_run (-1) ops) = [2; 3; 4; 5].
Proof. repeat split. Qed.

(** C14. [transport_of c chs ix]: every way the message of one broadcast reaches channel [ix]. *)
Theorem C14_exactly_one_transport : forall c chs ix ch, nth_error chs ix = Some ch ->
  let ftcp := effective false (env_force_tcp c) (opt_force_tcp c) in
  let local := effective true (env_allow_local c) (opt_allow_local c) in
  transport_of c chs ix =
  [if ftcp then Tcp
   else if negb (ch_shm_ok ch) then Tcp
   else if local && Nat.eqb (pub_pid c) (ch_pid ch) then InProcess
   else SharedMemory].
Proof. exact transport_cases. Qed.

Theorem C14_local_delivery_at_most_once : forall c chs,
  List.length (filter (fun a => match a with PutLocal => true | _ => false end) (broadcast_actions c chs)) <= 1.
Proof. exact put_local_once. Qed.

Example C14_case :
  let chs := [{| ch_pid := 5; ch_shm_ok := true |}; {| ch_pid := 6; ch_shm_ok := true |}; {| ch_pid := 7; ch_shm_ok := false |}] in
  let c o := {| env_force_tcp := Some "On"%string; env_allow_local := None; opt_force_tcp := o; opt_allow_local := None; pub_pid := 5 |} in
  map (transport_of (c (Some false)) chs) [0; 1; 2] = [[InProcess]; [SharedMemory]; [Tcp]] /\
  map (transport_of (c None) chs) [0; 1; 2] = [[Tcp]; [Tcp]; [Tcp]].
Proof. split; reflexivity. Qed.

Print Assumptions C13_never_over_capacity.
Print Assumptions C13_queue_is_newest_and_nothing_lost.
Print Assumptions C13_put_drops_oldest_exactly_when_full.
Print Assumptions C13_get_takes_oldest.
Print Assumptions C13_unregister_removes_only_its_own.
Print Assumptions C14_exactly_one_transport.
Print Assumptions C14_local_delivery_at_most_once.
