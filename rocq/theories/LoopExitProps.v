(* C88: leaving an event loop. *)

From Coq Require Import List Arith Bool Lia.
From Verif Require Import LoopExitModel LoopExitSpec LoopExitProofs.
Import ListNotations.

(** Exactly the tasks that are alive when the cancelling happens are cancelled, each once counted, whatever happens before and after. *)
Theorem C88_all_cancelled : forall strict timeout l1 s1 l2 s, run strict timeout init l1 = Some s1 -> run strict timeout s1 (Cancel :: l2) = Some s ->
  (forall i, asked_at s i <-> alive_at s1 i) /\
  forall r, result s = Some r -> forced_interrupt r = false -> exists ids, NoDup ids /\ (forall i, In i ids <-> alive_at s1 i) /\ cancelled_tasks r = length ids.
Proof.
  intros strict timeout l1 s1 l2 s R1 R2. cbn [run] in R2. destruct (step strict timeout s1 Cancel) as [s2|] eqn:S2; [|discriminate].
  destruct (at_cancel _ _ _ _ _ R1 S2) as (CT & CA). pose proof (caught_run _ _ _ _ _ _ CT CA R2) as CA2. split.
  - intros i. rewrite (c_asked _ _ _ CA2). apply living_alive.
  - intros r RE F. destruct (c_result _ _ _ CA2 r RE F) as (A & _). exists (living 0 (tasks s1)). split; [apply living_NoDup|]. split; [apply living_alive|exact A].
Qed.
Print Assumptions C88_all_cancelled.

(** No task is cancelled before that, and a summary that does not speak of an interrupt is only made after it. *)
Theorem C88_cancelled_first : forall strict timeout l s, run strict timeout init l = Some s ->
  (exists i, asked_at s i) \/ (exists r, result s = Some r /\ forced_interrupt r = false) -> In Cancel l /\ strict = false.
Proof.
  intros strict timeout l s R H. pose proof (run_ctl _ _ _ _ _ (ctl_init strict) R) as CT. pose proof (run_linv _ _ _ _ _ (ctl_init strict) (or_introl early_init) R) as I.
  assert (Z : canc s <> KNo /\ canc s <> KSent).
  { destruct I as [(A & B & C)|(ids & CA)].
    - destruct H as [(i & H)|(r & H1 & H2)]; [destruct (B i H)|]. rewrite (C r H1) in H2. discriminate.
    - destruct (c_canc _ _ _ CA) as [(d & Z & _)|(q & Z & _)]; rewrite Z; split; discriminate. }
  destruct (cancel_when _ _ _ _ _ (ctl_init strict) early_init R (proj1 Z) (proj2 Z)) as (l1 & l2 & s1 & s2 & -> & _). split; [apply in_elt|].
  destruct strict; [|reflexivity]. destruct (k_strict _ _ CT eq_refl) as (K & _). destruct Z. congruence.
Qed.
Print Assumptions C88_cancelled_first.

(** The number of tasks still pending is that of the cancelled tasks alive when the waiting ends; it ends when there are none, and otherwise not before the time is up. *)
Theorem C88_pending : forall strict timeout l1 s1 l2 s2 l3 s, run strict timeout init l1 = Some s1 -> ~ In Wake l2 ->
  run strict timeout s1 (Cancel :: l2) = Some s2 -> run strict timeout s2 (Wake :: l3) = Some s ->
  ((forall i, asked_at s2 i -> ~ alive_at s2 i) \/ timeout <= how_many is_tick l2) /\
  forall r, result s = Some r -> forced_interrupt r = false -> exists q, NoDup q /\ (forall i, In i q <-> asked_at s2 i /\ alive_at s2 i) /\ pending_tasks r = length q.
Proof.
  intros strict timeout l1 s1 l2 s2 l3 s R1 NW R2 R3. cbn [run] in R2. destruct (step strict timeout s1 Cancel) as [s1'|] eqn:S2; [|discriminate].
  destruct (at_cancel _ _ _ _ _ R1 S2) as (CT & CA). pose proof (caught_run _ _ _ _ _ _ CT CA R2) as CA2. pose proof (run_ctl _ _ _ _ _ CT R2) as CT2.
  set (ids := living 0 (tasks s1)) in *.
  cbn [run] in R3. destruct (step strict timeout s2 Wake) as [s3|] eqn:S3; [|discriminate]. destruct (wake_done _ _ _ _ S3) as (ids' & d & K2 & K3 & EN).
  assert (ids' = ids). { destruct (c_canc _ _ _ CA2) as [(d' & Z & _)|(q & Z & _)]; congruence. } subst ids'.
  assert (QI : forall i, In i (filter (is_alive s2) ids) <-> asked_at s2 i /\ alive_at s2 i). { intros i. rewrite filter_In, is_alive_spec, (c_asked _ _ _ CA2). reflexivity. }
  split.
  - destruct EN as [EN|EN]; [left; intros i A B; assert (H : In i (filter (is_alive s2) ids)) by (apply QI; auto); rewrite EN in H; destruct H|right].
    assert (W : canc s1' = KWait ids (now s1 + timeout) /\ now s1' = now s1).
    { cbn in S2. destruct (canc s1); try discriminate. destruct (free s1); [|discriminate]. injection S2 as <-. unfold cancel. fold ids. destruct ids as [|i q] eqn:EI; [|cbn; auto].
      exfalso. unfold cancel in R2. fold ids in R2. rewrite EI in R2.
      pose proof (done_stays strict timeout l2 _ s2 0 0 CT) as DS. unfold cancel in DS. fold ids in DS. rewrite EI in DS. specialize (DS eq_refl R2). congruence. }
    destruct W as (W1 & W2). destruct (wait_stays _ _ _ _ _ _ _ CT W1 NW R2) as (Y1 & Y2). assert (d = now s1 + timeout) by congruence. lia.
  - intros r RE F. exists (filter (is_alive s2) ids). split; [apply NoDup_filter, living_NoDup|]. split; [exact QI|].
    pose proof (step_ctl _ _ _ _ _ CT2 S3) as CT3.
    assert (RN : result s3 = None).
    { destruct (result s3) as [r0|] eqn:RR; [|reflexivity]. exfalso. assert (Z : result s2 = Some r0). { cbn in S3. rewrite K2 in S3. match type of S3 with (if ?c then _ else _) = _ => destruct c end; [|discriminate]. injection S3 as <-. exact RR. }
      destruct (result_stays _ _ _ _ _ _ CT3 RR R3) as (Z1 & _). assert (r0 = r) by congruence. subst r0.
      destruct (result_how strict timeout (l1 ++ Cancel :: l2) init s2 r (ctl_init strict) eq_refl) as (k1 & a & k2 & t1 & t2 & EQ & H1 & H2 & H3 & H4 & H5 & H6 & H7); [rewrite run_app, R1; cbn [run]; now rewrite S2|exact Z|].
      destruct H6 as [->| ->]; [|rewrite (proj2 H7 eq_refl) in F; discriminate].
      pose proof (run_ctl _ _ _ _ _ (ctl_init strict) H1) as CTt. destruct (step_result _ _ _ _ _ CTt H2) as (_ & _ & _ & G). destruct (G eq_refl) as (r1 & c & p & G1 & G2 & G3 & _).
      assert (G4 : canc t2 = KDone c p). { apply (done_stays strict timeout [Result] t1 t2 c p CTt G3). cbn [run]. now rewrite H2. }
      pose proof (done_stays _ _ _ _ _ _ _ (step_ctl _ _ _ _ _ CTt H2) G4 H3). congruence. }
    destruct (result_how _ _ l3 s3 s r CT3 RN R3 RE) as (k1 & a & k2 & t1 & t2 & EQ & H1 & H2 & H3 & H4 & H5 & H6 & H7). destruct H6 as [->| ->]; [|rewrite (proj2 H7 eq_refl) in F; discriminate].
    pose proof (run_ctl _ _ _ _ _ CT3 H1) as CTt. destruct (step_result _ _ _ _ _ CTt H2) as (_ & _ & _ & G). destruct (G eq_refl) as (r1 & c & p & G1 & G2 & G3 & G4 & G5).
    assert (r1 = r) by congruence. subst r1. pose proof (done_stays _ _ _ _ _ _ _ CT3 K3 H1). congruence.
Qed.
Print Assumptions C88_pending.

(** Where the summary is clean, all that was cancelled is done, every job handed to the executor is over, no error was swallowed and nobody interrupted. *)
Theorem C88_clean : forall strict timeout l a s s' r, run strict timeout init l = Some s -> step strict timeout s a = Some s' ->
  result s = None -> result s' = Some r -> unclean r = false ->
  a = Result /\ (forall i, asked_at s' i -> done_at s' i) /\ (forall j, submitted s' j -> over s' j) /\
  forall l1 l2, l = l1 ++ Leave :: l2 -> ~ In Error l2.
Proof.
  intros strict timeout l a s s' r R ST RN RE U. pose proof (run_ctl _ _ _ _ _ (ctl_init strict) R) as CT. pose proof (run_linv _ _ _ _ _ (ctl_init strict) (or_introl early_init) R) as I.
  unfold unclean in U. apply orb_false_elim in U. destruct U as (U & UF). apply orb_false_elim in U. destruct U as (U & US). apply orb_false_elim in U. destruct U as (UE & UP). apply negb_false_iff, Nat.eqb_eq in UE, UP, US.
  assert (A : a = Result). { destruct (which a) as [[->| ->]|(W1 & W2)]; [reflexivity| |]; destruct (step_result _ _ _ _ _ CT ST) as (_ & B & C & _); [destruct (C eq_refl) as (r' & C1 & C2); congruence|rewrite (B RN W1 W2) in RE; discriminate]. }
  subst a. split; [reflexivity|].
  assert (R' : run strict timeout init (l ++ [Result]) = Some s') by (rewrite run_app, R; cbn [run]; now rewrite ST).
  pose proof (run_linv _ _ _ _ _ (ctl_init strict) (or_introl early_init) R') as I'.
  cbn in ST. destruct (mpc s) eqn:M; try discriminate. destruct (canc s) as [| | |c p] eqn:K; try discriminate. injection ST as <-. cbn in RE. injection RE as <-. cbn in UE, UP, US.
  split; [|split].
  - destruct I' as [(B & _)|(ids & CA)]; [cbn in B; destruct B; congruence|]. intros i AS. pose proof (proj1 (c_asked _ _ _ CA i) AS) as IN. destruct (c_canc _ _ _ CA) as [(d & Z & _)|(q & Z & RT)]; [cbn in Z; congruence|].
    assert (q = []). { cbn in Z. rewrite K in Z. destruct q; [reflexivity|]. cbn in Z. injection Z as _ Z. lia. } subst q. destruct RT as (_ & _ & RT).
    destruct AS as (t & T1 & T2). destruct (alive_or_done _ _ _ T1) as [AL|D]; [destruct (RT i IN AL)|exact D].
  - intros j SB. pose proof (run_jinv _ _ _ _ _ jinv_init R) as J. destruct (idle_over s J UE j) as (x & X1 & X2); [|exists x; auto]. destruct SB as (x & X). exists x. exact X.
  - intros l1 l2 -> IN. rewrite run_app in R. destruct (run strict timeout init l1) as [s1|] eqn:R1; [|discriminate]. cbn [run] in R. destruct (step strict timeout s1 Leave) as [s2|] eqn:S2; [|discriminate].
    pose proof (run_ctl _ _ _ _ _ (ctl_init strict) R1) as CT1. destruct (step_errors _ _ _ _ _ CT1 S2) as (_ & _ & B). destruct (B eq_refl) as (B1 & B2 & B3 & B4).
    assert (SF : strict = false). { destruct strict; [|reflexivity]. destruct (k_strict _ _ CT eq_refl) as (Z & _). congruence. } rewrite SF in B2.
    pose proof (step_ctl _ _ _ _ _ CT1 S2) as CT2. destruct (errors_after _ _ _ _ _ CT2 B2 R) as (_ & E2 & _). assert (H : how_many is_error l2 = 0) by lia.
    unfold how_many in H. apply length_zero_iff_nil in H. assert (In Error (filter is_error l2)) by (apply filter_In; auto). rewrite H in H0. destruct H0.
Qed.
Print Assumptions C88_clean.

(** If no task is started after the cancelling and the summary says that none is pending, none is left. *)
Theorem C88_nothing_left : forall strict timeout l1 l2 s r, run strict timeout init (l1 ++ Cancel :: l2) = Some s -> ~ In Spawn l2 ->
  result s = Some r -> pending_tasks r = 0 -> forced_interrupt r = false -> forall i, ~ alive_at s i.
Proof.
  intros strict timeout l1 l2 s r R NS RE P F i AL. rewrite run_app in R. destruct (run strict timeout init l1) as [s1|] eqn:R1; [|discriminate]. cbn [run] in R. destruct (step strict timeout s1 Cancel) as [s2|] eqn:S2; [|discriminate].
  destruct (at_cancel _ _ _ _ _ R1 S2) as (CT & CA). pose proof (caught_run _ _ _ _ _ _ CT CA R) as CA2.
  assert (A1 : alive_at s1 i). { apply (step_alive _ _ _ _ _ i S2); [discriminate|]. eapply run_alive; eauto. }
  destruct (c_result _ _ _ CA2 r RE F) as (_ & q & Q1 & _ & _ & Q2). assert (q = []) by (apply length_zero_iff_nil; congruence). subst q. apply (Q2 i); [now apply living_alive|exact AL].
Qed.
Print Assumptions C88_nothing_left.

(** Once leaving has begun, and no task blocks the loop's thread, the loop can always be left by what leaving does itself, within the time-out;
    whatever goes on besides, only five such moves are ever needed; and without waiting at all once all that was cancelled is done. *)
Theorem C88_ends : forall strict timeout l s, run strict timeout init l = Some s ->
  how_many own l <= 5 /\
  (In Leave l -> busy s = None ->
     exists l' s', run strict timeout s l' = Some s' /\ mpc s' = MClosed /\ how_many is_tick l' <= timeout /\ Forall (fun a => own a = true \/ a = Tick) l') /\
  (In Leave l -> In Cancel l -> busy s = None -> (forall i, asked_at s i -> ~ alive_at s i) ->
     exists l' s', run strict timeout s l' = Some s' /\ mpc s' = MClosed /\ Forall (fun a => own a = true) l').
Proof.
  intros strict timeout l s R. pose proof (run_ctl _ _ _ _ _ (ctl_init strict) R) as CT. pose proof (run_linv _ _ _ _ _ (ctl_init strict) (or_introl early_init) R) as I.
  assert (LV : In Leave l -> mpc s <> MRun). { intros IN M. apply (run_left_run _ _ _ _ _ R) in M. tauto. }
  split; [pose proof (run_left _ _ _ _ _ (ctl_init strict) R) as H; unfold left_ in H; cbn in H; destruct strict; cbn in H; lia|].
  split; [intros IN BU; apply out; auto|].
  intros IN IC BU N. specialize (LV IN). destruct (mpc s) eqn:M; [congruence| | |].
  - assert (RN : running s = true). { destruct (running s) eqn:RN; [reflexivity|]. destruct (k_off _ _ CT RN) as (_ & [Z|Z]); congruence. }
    apply in_split in IC. destruct IC as (l1 & l2 & ->). rewrite run_app in R. destruct (run strict timeout init l1) as [s1|] eqn:R1; [|discriminate]. cbn [run] in R. destruct (step strict timeout s1 Cancel) as [s2|] eqn:S2; [|discriminate].
    destruct (at_cancel _ _ _ _ _ R1 S2) as (CT2 & CA). pose proof (caught_run _ _ _ _ _ _ CT2 CA R) as CA2. destruct (c_canc _ _ _ CA2) as [(d & K & _)|(q & K & _)].
    + eapply out_prompt; eauto. intros i H. apply N, (c_asked _ _ _ CA2), H.
    + eapply out_done; eauto.
  - apply out_stop; auto.
  - exists [], s. auto.
Qed.
Print Assumptions C88_ends.

(** Errors of callbacks and tasks are shown until leaving begins; from then on they are counted, and the summary gives their number. *)
Theorem C88_errors : forall strict timeout l1 l2 s, run strict timeout init (l1 ++ Leave :: l2) = Some s ->
  shown s = how_many is_error l1 + (if strict then how_many is_error l2 else 0) /\
  forall a s' r, result s = None -> step strict timeout s a = Some s' -> result s' = Some r -> suppressed_errors r = how_many is_error l2.
Proof.
  intros strict timeout l1 l2 s R. pose proof (run_ctl _ _ _ _ _ (ctl_init strict) R) as CT. rewrite run_app in R. destruct (run strict timeout init l1) as [s1|] eqn:R1; [|discriminate]. cbn [run] in R.
  destruct (step strict timeout s1 Leave) as [s2|] eqn:S2; [|discriminate]. pose proof (run_ctl _ _ _ _ _ (ctl_init strict) R1) as CT1. pose proof (step_ctl _ _ _ _ _ CT1 S2) as CT2.
  assert (NL : strict = true \/ ~ In Leave l1). { right. intros IN. cbn in S2. destruct (mpc s1) eqn:M; try discriminate. apply (run_left_run _ _ _ _ _ R1) in M. tauto. }
  destruct (errors_before _ _ _ _ _ (ctl_init strict) eq_refl NL R1) as (A1 & A2 & A3). destruct (step_errors _ _ _ _ _ CT1 S2) as (_ & _ & B). destruct (B eq_refl) as (B1 & B2 & B3 & B4). cbn in A2, A3.
  destruct strict eqn:SS; cbn [negb] in B2.
  - destruct (errors_before _ _ _ _ _ CT2 B2 (or_introl eq_refl) R) as (C1 & C2 & C3). split; [lia|]. intros a s' r RN ST RE. exfalso. destruct (k_strict _ _ (step_ctl _ _ _ _ _ CT ST) eq_refl) as (_ & _ & Z). congruence.
  - destruct (errors_after _ _ _ _ _ CT2 B2 R) as (C1 & C2 & C3). split; [lia|]. intros a s' r RN ST RE.
    destruct (which a) as [[->| ->]|(W1 & W2)]; [| |destruct (step_result _ _ _ _ _ CT ST) as (_ & Z & _); rewrite (Z RN W1 W2) in RE; discriminate].
    + cbn in ST. destruct (mpc s); try discriminate. destruct (canc s); try discriminate. injection ST as <-. cbn in RE. injection RE as <-. cbn. lia.
    + cbn in ST. destruct (mpc s); try discriminate. injection ST as <-. cbn in RE. injection RE as <-. cbn. lia.
Qed.
Print Assumptions C88_errors.

(** The summary speaks of an interrupt exactly if there was one. *)
Theorem C88_forced : forall strict timeout l s r, run strict timeout init l = Some s -> result s = Some r -> (forced_interrupt r = true <-> In Interrupt l).
Proof.
  intros strict timeout l s r R RE. destruct (result_how _ _ _ _ _ _ (ctl_init strict) eq_refl R RE) as (l1 & a & l2 & s1 & s2 & -> & H1 & H2 & H3 & H4 & H5 & H6 & H7).
  pose proof (run_ctl _ _ _ _ _ (ctl_init strict) H1) as CT1. destruct (result_stays _ _ _ _ _ _ (step_ctl _ _ _ _ _ CT1 H2) H5 H3) as (_ & N1 & _). rewrite H7, in_app_iff. cbn [In]. split; [tauto|].
  intros [IN|[E|IN]]; [|exact E|destruct (N1 IN)]. exfalso. apply in_split in IN. destruct IN as (k1 & k2 & ->). rewrite run_app in H1. destruct (run strict timeout init k1) as [t1|] eqn:T1; [|discriminate]. cbn [run] in H1.
  destruct (step strict timeout t1 Interrupt) as [t2|] eqn:T2; [|discriminate]. pose proof (run_ctl _ _ _ _ _ (ctl_init strict) T1) as CTt. destruct (step_result _ _ _ _ _ CTt T2) as (_ & _ & Z & _). destruct (Z eq_refl) as (r' & Z1 & _).
  destruct (result_stays _ _ _ _ _ _ (step_ctl _ _ _ _ _ CTt T2) Z1 H1) as (Y & _). congruence.
Qed.
Print Assumptions C88_forced.

(** The executor's count: at rest (every submit() has returned, every callback that can run has run) it is the number of jobs not over;
    and at any time, if it is zero, every job whose submit() has returned is over. *)
Theorem C88_executor : forall strict timeout l s, run strict timeout init l = Some s ->
  (active s = 0 -> forall j, submitted s j -> over s j) /\
  ((forall j x, nth_error (jobs s) j = Some x -> stg x = Returned /\ step strict timeout s (JCallback j) = None) ->
     active s = length (filter (fun x => negb (finished x)) (jobs s))) /\
  (forall a s' r, result s = None -> step strict timeout s a = Some s' -> result s' = Some r -> executor_active r = active s).
Proof.
  intros strict timeout l s R. pose proof (run_jinv _ _ _ _ _ jinv_init R) as J. pose proof (run_ctl _ _ _ _ _ (ctl_init strict) R) as CT. split; [now apply idle_over|]. split.
  - intros Q. apply quiet_count; [exact J|]. intros j x X. destruct (Q j x X) as (Q1 & Q2). split; [exact Q1|]. intros F. cbn in Q2. rewrite X in Q2. destruct x as [f g a p]. cbn in *. subst f. destruct a; [discriminate|reflexivity].
  - intros a s' r RN ST RE. destruct (which a) as [[->| ->]|(W1 & W2)]; [| |destruct (step_result _ _ _ _ _ CT ST) as (_ & Z & _); rewrite (Z RN W1 W2) in RE; discriminate].
    + cbn in ST. destruct (mpc s); try discriminate. destruct (canc s); try discriminate. injection ST as <-. cbn in RE. injection RE as <-. reflexivity.
    + cbn in ST. destruct (mpc s); try discriminate. injection ST as <-. cbn in RE. injection RE as <-. reflexivity.
Qed.
Print Assumptions C88_executor.

(** ** What does not hold *)

(** C88 finding: a task that is started by the clean-up of a cancelled task is neither cancelled nor waited for: the loop is closed over it, and the summary says that all is clean (877-888). *)
Theorem C88_late_task_left_refuted : forall timeout, ~ (forall l s r, run false timeout init l = Some s -> mpc s = MClosed -> result s = Some r -> unclean r = false -> forall i, ~ alive_at s i).
Proof.
  intros timeout H. destruct (run false timeout init [Spawn; Leave; Cancel; Spawn; End_ 0; Wake; Result; StopLoop; Join]) as [s|] eqn:R; [|cbn in R; discriminate].
  pose proof (H _ _ (mkSum 1 0 0 0 false) R) as Z. clear H. cbn in R. injection R as <-. refine (Z eq_refl eq_refl eq_refl 1 _). eexists. split; [reflexivity|reflexivity].
Qed.
Print Assumptions C88_late_task_left_refuted.

(** C88 finding: a task that blocks the loop's thread is beyond the reach of the time-out: until it returns, leaving does not end, not even after an interrupt (934-935). *)
Theorem C88_blocked_refuted : forall strict timeout, ~ (forall l s, run strict timeout init l = Some s -> In Leave l ->
  exists l' s', (forall i, ~ In (Unblock i) l') /\ run strict timeout s l' = Some s' /\ mpc s' = MClosed).
Proof.
  intros strict timeout H. destruct (run strict timeout init [Spawn; Block 0; Leave]) as [s|] eqn:R; [|destruct strict; cbn in R; discriminate].
  destruct (H _ _ R) as (l' & s' & N & R' & M); [cbn; tauto|].
  assert (B : busy s = Some 0 /\ running s = true /\ mpc s <> MClosed) by (destruct strict; cbn in R; injection R as <-; cbn; repeat split; discriminate).
  clear R H. revert s B R'. induction l' as [|a l' IH]; intros s (B1 & B2 & B3) R'; cbn [run] in R'; [congruence|]. destruct (step strict timeout s a) as [s1|] eqn:SS; [|discriminate].
  apply (IH (fun i Z => N i (or_intror Z)) s1); [|exact R']. eapply blocked_stays; eauto. intros ->. apply (N 0). now left.
Qed.
Print Assumptions C88_blocked_refuted.

(** C88 finding: with EZMSG_STRICT_SHUTDOWN no task is ever cancelled or waited for: the loop is closed over all that are alive, and the summary is not filled in (874, 934-936). *)
Theorem C88_strict_leaves_tasks_refuted : forall timeout, ~ (forall l s, run true timeout init l = Some s -> mpc s = MClosed -> (forall i, alive_at s i -> asked_at s i) /\ result s <> None).
Proof.
  intros timeout H. destruct (run true timeout init [Spawn; Leave; StopLoop; Join]) as [s|] eqn:R; [|cbn in R; discriminate]. pose proof (H _ _ R) as Z. clear H. cbn in R. injection R as <-. destruct (Z eq_refl) as (A & _). destruct (A 0) as (t & T1 & T2); [eexists; split; reflexivity|]. cbn in T1. injection T1 as <-. discriminate.
Qed.
Print Assumptions C88_strict_leaves_tasks_refuted.

(** C88 finding: after an interrupt the summary says that no task was cancelled and none is pending, while tasks were cancelled and are still alive when the loop is closed (890-898). *)
Theorem C88_interrupt_counts_nothing_refuted : forall timeout, ~ (forall l s r, run false timeout init l = Some s -> mpc s = MClosed -> result s = Some r -> pending_tasks r = 0 -> cancelled_tasks r = 0 -> forall i, asked_at s i -> ~ alive_at s i).
Proof.
  intros timeout H. destruct (run false timeout init [Spawn; Leave; Cancel; Interrupt; StopLoop; Join]) as [s|] eqn:R; [|cbn in R; discriminate].
  pose proof (H _ _ (mkSum 0 0 0 0 true) R) as Z. clear H. cbn in R. injection R as <-. refine (Z eq_refl eq_refl eq_refl eq_refl 0 _ _); eexists; split; reflexivity.
Qed.
Print Assumptions C88_interrupt_counts_nothing_refuted.

(** C88 finding: a job whose submit() has not returned is not counted yet: the summary may be clean while a job handed to the executor runs (112-115). *)
Theorem C88_job_not_counted_refuted : forall timeout, ~ (forall l s a s' r, run false timeout init l = Some s -> result s = None -> step false timeout s a = Some s' -> result s' = Some r -> unclean r = false -> forall j x, nth_error (jobs s') j = Some x -> finished x = true).
Proof.
  intros timeout H. destruct (run false timeout init [JSubmit; Leave; Cancel]) as [s|] eqn:R; [|cbn in R; discriminate]. destruct (step false timeout s Result) as [s'|] eqn:ST; [|cbn in R; injection R as <-; cbn in ST; discriminate].
  pose proof (H _ _ Result s' (mkSum 0 0 0 0 false) R) as Z. clear H. cbn in R. injection R as <-. specialize (Z eq_refl ST). cbn in ST. injection ST as <-. specialize (Z eq_refl eq_refl 0 _ eq_refl). discriminate.
Qed.
Print Assumptions C88_job_not_counted_refuted.

(** Three tasks and a job: one task ends when cancelled, one does not, and an error is swallowed; the summary tells it all and the loop is left. *)
Example C88_case : exists s r,
  run false 2 init [Spawn; Spawn; Spawn; Error; End_ 0; JSubmit; JCount 0; JAttach 0; Leave; Cancel; End_ 1; Error; Tick; Tick; Wake; Result; StopLoop; Join; JFinish 0; JCallback 0] = Some s /\
  result s = Some r /\ r = mkSum 2 1 1 1 false /\ unclean r = true /\ mpc s = MClosed /\ shown s = 1 /\ active s = 0 /\ alive_at s 2 /\ asked_at s 2 /\ done_at s 1 /\
  run false 2 init [Spawn; Leave; Cancel; Tick; Wake] = None /\
  exists s', run false 2 init [Spawn; Leave; Cancel; End_ 0; Wake; Result; StopLoop; Join] = Some s' /\ result s' = Some (mkSum 1 0 0 0 false).
Proof.
  do 2 eexists. split; [vm_compute; reflexivity|]. repeat split; try (vm_compute; reflexivity); try (eexists; split; vm_compute; reflexivity).
Qed.
