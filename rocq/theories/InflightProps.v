(* C93: the number of messages in flight that a publisher's profile reports. *)
From Coq Require Import List Arith ZArith Bool Lia.
From Verif Require Import BackpressureModel BackpressureProofs InflightModel InflightSpec InflightProofs.
Import ListNotations.

(** If all subscribers are in other processes every report is the number of buffers whose
    message some channel has not handled, however broadcasts, acknowledgements and closing
    connections interleave. *)
Theorem C93_other_processes : forall n l s, 0 < n -> run n l s -> nothing_local l ->
  reports_right n (log s).
Proof. intros n l s Hn R N. exact (proj1 (remote_right n l s Hn R N)). Qed.
Print Assumptions C93_other_processes.

(** In any case no report is negative or above the number of buffers ... *)
Theorem C93_bounded : forall n l s, 0 < n -> run n l s -> reports_bounded n (log s).
Proof. intros n l s Hn R. apply (reports_ok n l s Hn R). Qed.
Print Assumptions C93_bounded.

(** ... a report is not too small while no broadcast is under way ... *)
Theorem C93_not_below : forall n l s, 0 < n -> run n l s -> reports_not_below n (log s).
Proof. intros n l s Hn R. apply (reports_ok n l s Hn R). Qed.
Print Assumptions C93_not_below.

(** ... and it was right when a broadcast last returned, or something last happened on a
    connection with another process. *)
Theorem C93_last_heard : forall n l s, 0 < n -> run n l s -> reports_last_heard n (log s).
Proof. intros n l s Hn R. apply (reports_ok n l s Hn R). Qed.
Print Assumptions C93_last_heard.

Fixpoint go (n : nat) (s : st) (l : list ev) : option st :=
  match l with [] => Some s | e :: l => match step n s e with Some s => go n s l | None => None end end.

Lemma go_run n l : forall l0 s s', run n l0 s -> go n s l = Some s' -> run n (l0 ++ l) s'.
Proof.
  induction l as [|e l IH]; intros l0 s s' R E; cbn in E.
  - injection E as <-. now rewrite app_nil_r.
  - destruct (step n s e) as [s1|] eqn:E1; [|discriminate].
    replace (l0 ++ e :: l) with ((l0 ++ [e]) ++ l) by now rewrite <- app_assoc.
    eapply IH; [eapply run_snoc; eauto|exact E].
Qed.

Lemma snapshots n l s k : run n l s ->
  run n (l ++ repeat Snapshot k)
    (mkSt (bp s) (nxt s) (calls s) (infl s) (repeat (Reported (infl s)) k ++ log s)).
Proof.
  intros R. induction k as [|k IH].
  - cbn. rewrite app_nil_r. now destruct s.
  - replace (repeat Snapshot (S k)) with (repeat Snapshot k ++ [Snapshot])
      by (rewrite <- repeat_cons; reflexivity).
    rewrite app_assoc. eapply run_snoc; [exact IH|]. reflexivity.
Qed.

Lemma mod0 n : 0 mod S n = 0.
Proof. apply Nat.mod_small. lia. Qed.

(** C93 finding: releases by subscribers in the publisher's own process are not counted. When such
    a publisher has sent its last message and the message has been handled, every further
    snapshot, however many, still reports one message in flight. *)
Theorem C93_idle_refuted : forall n k, 0 < n ->
  exists l s h, run n (l ++ repeat Snapshot k) s /\ log s = repeat (Reported 1) k ++ h /\
    under_way h = 0 /\ in_flight n h = 0.
Proof.
  intros [|n] k Hn; [lia|].
  set (l := [Enter; Go 0 true []; Finish 0; LocalAck 0]).
  assert (R : exists s, run (S n) l s /\ infl s = 1%Z /\ under_way (log s) = 0 /\ pressure (bp s) = 0%Z).
  { eexists. split.
    - apply (go_run (S n) l [] (init (S n))); [constructor|].
      cbn [go step l set_calls init calls nxt bp note lease sampled free log infl nth_error set_nth app map remove_nth firstn skipn].
      reflexivity.
    - cbn [infl log bp]. rewrite ?mod0. cbn. rewrite ?Nat.sub_diag. cbn. auto. }
  destruct R as (s & R & I & U & P). exists l. eexists. exists (log s).
  split; [exact (snapshots _ _ _ k R)|]. cbn [log]. rewrite I. repeat split; auto.
  pose proof (pressure_run (S n) l s Hn R). lia.
Qed.
Print Assumptions C93_idle_refuted.

(** C93 finding: a message that subscribers in the publisher's process have got is not reported
    while the same broadcast still waits for a connection to another process. *)
Theorem C93_slow_connection_refuted : forall n, 0 < n ->
  exists l s h, run n l s /\ log s = Reported 0 :: h /\ in_flight n h = 1.
Proof.
  intros [|n] Hn; [lia|].
  set (l := [Enter; Go 0 true [0]]).
  assert (R : exists s, run (S n) l s /\ infl s = 0%Z /\ pressure (bp s) = 1%Z).
  { eexists. split.
    - apply (go_run (S n) l [] (init (S n))); [constructor|].
      cbn [go step l set_calls init calls nxt bp note lease sampled free log infl nth_error set_nth app map remove_nth firstn skipn].
      reflexivity.
    - cbn [infl log bp]. rewrite ?mod0. cbn. rewrite ?Nat.sub_diag. cbn. auto. }
  destruct R as (s & R & I & P). exists (l ++ [Snapshot]). eexists. exists (log s).
  split; [eapply run_snoc; [exact R|reflexivity]|]. cbn [log note]. rewrite I. split; [reflexivity|].
  pose proof (pressure_run (S n) l s Hn R). lia.
Qed.
Print Assumptions C93_slow_connection_refuted.

(** A publisher with two buffers and two other processes; the second broadcast overlaps the
    acknowledgements of the first, and one process goes away. *)
Example C93_case :
  let l := [Enter; Go 0 false [0; 1]; Wrote 0 true; Snapshot; Wrote 0 true; Finish 0; Snapshot;
            Enter; Go 0 false [0; 1]; Wrote 0 true; Ack 0 0; Snapshot; Ack 1 0; Snapshot;
            Wrote 0 false; Finish 0; Ack 0 1; Snapshot; Gone 1; Snapshot] in
  exists s, run 2 l s /\ nothing_local l /\
    map (fun f => match f with Reported z => [z] | _ => [] end) (log s) =
    [[0%Z]; []; [0%Z]; []; []; [1%Z]; []; [2%Z]; []; []; []; [1%Z]; []; []; [1%Z]; []; []].
Proof.
  cbv zeta. eexists. split; [|split].
  - apply (go_run 2 _ [] (init 2)); [constructor|]. vm_compute. reflexivity.
  - intros e He. cbn in He. repeat destruct He as [<-|He]; cbn; auto. contradiction.
  - reflexivity.
Qed.

(** With a subscriber in the same process the count is right again after the next broadcast. *)
Example C93_local_case :
  let l := [Enter; Go 0 true []; Finish 0; Snapshot; LocalAck 0; Snapshot;
            Enter; Go 0 true [0]; Wrote 0 true; LocalAck 1; Finish 0; Snapshot; Ack 0 1; Snapshot] in
  exists s, run 2 l s /\
    flat_map (fun f => match f with Reported z => [z] | _ => [] end) (log s) = [0%Z; 1%Z; 1%Z; 1%Z].
Proof.
  cbv zeta. eexists. split.
  - apply (go_run 2 _ [] (init 2)); [constructor|]. vm_compute. reflexivity.
  - reflexivity.
Qed.
