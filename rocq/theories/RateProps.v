(* C58: rate limiting. *)

From Coq Require Import QArith Bool List Lia Lqa.
From Verif Require Import RateModel.
Import ListNotations.
Open Scope Q_scope.

Lemma Qltb_true a b : Qltb a b = true <-> a < b.
Proof.
  unfold Qltb. rewrite negb_true_iff. split; intros H.
  - apply Qnot_le_lt. intros L. apply Qle_bool_iff in L. congruence.
  - destruct (Qle_bool b a) eqn:E; [|reflexivity]. apply Qle_bool_iff in E. lra.
Qed.

Lemma Qltb_false a b : Qltb a b = false <-> b <= a.
Proof.
  unfold Qltb. rewrite negb_false_iff. split; intros H; apply Qle_bool_iff; exact H.
Qed.

(** C58.  Whatever the clock reads, the time to sleep is not negative and at most one period. *)
Theorem C58_sleep_between_zero_and_a_period :
  forall r now, 0 < sleep_dur r -> 0 <= snd (sleep_logic r now) <= sleep_dur r.
Proof.
  intros r now P. unfold sleep_logic, remaining_. cbn [last_time sleep_dur snd].
  destruct (Qltb now (last_time r)) eqn:E.
  - destruct (Qltb 0 (sleep_dur r - (now - now))) eqn:F; [apply Qltb_true in F|apply Qltb_false in F]; split; lra.
  - apply Qltb_false in E. destruct (Qltb 0 (sleep_dur r - (now - last_time r))) eqn:F; [apply Qltb_true in F|apply Qltb_false in F]; split; lra.
Qed.
Print Assumptions C58_sleep_between_zero_and_a_period.

(** What one call does, for a clock that has not gone back before last_time. *)
Lemma sleep_cases r now : 0 < sleep_dur r -> last_time r <= now ->
  let r' := fst (sleep_logic r now) in let w := now + snd (sleep_logic r now) in
  sleep_dur r' = sleep_dur r /\
  (now < last_time r + sleep_dur r /\ w == last_time r + sleep_dur r /\ last_time r' == w \/
   last_time r + sleep_dur r <= now <= last_time r + 3 * sleep_dur r /\ w == now /\ last_time r' == last_time r + sleep_dur r \/
   last_time r + 3 * sleep_dur r < now /\ w == now /\ last_time r' == w).
Proof.
  intros P L. unfold sleep_logic, remaining_. cbn [last_time sleep_dur fst snd].
  assert (E : Qltb now (last_time r) = false) by (apply Qltb_false; exact L). rewrite E. split; [reflexivity|].
  destruct (Qltb 0 (sleep_dur r - (now - last_time r))) eqn:F; [apply Qltb_true in F|apply Qltb_false in F];
    (destruct (Qltb (sleep_dur r * 2) (now - (last_time r + sleep_dur r))) eqn:G; [apply Qltb_true in G|apply Qltb_false in G]).
  - lra.
  - left. lra.
  - right. right. lra.
  - right. left. lra.
Qed.

(** A caller under a monotone clock: each reading is not before the previous wake-up (the first not
    before the start). *)
Fixpoint monotone (t : Q) (readings : list Q) (ws : list Q) : Prop :=
  match readings, ws with
  | now :: rest, w :: ws => t <= now /\ monotone w rest ws
  | _, _ => True
  end.

(** Each reading is within a period of the previous wake-up. *)
Fixpoint on_time (t period : Q) (readings : list Q) (ws : list Q) : Prop :=
  match readings, ws with
  | now :: rest, w :: ws => t <= now <= t + period /\ on_time w period rest ws
  | _, _ => True
  end.

Lemma wakes_eq r now rest :
  wakes r (now :: rest) = (now + snd (sleep_logic r now) :: fst (wakes (fst (sleep_logic r now)) rest), snd (wakes (fst (sleep_logic r now)) rest)).
Proof. cbn [wakes]. destruct (sleep_logic r now) as [r' s]. cbn [fst snd]. destruct (wakes r' rest). reflexivity. Qed.

Lemma wakes_length r : forall readings, length (fst (wakes r readings)) = length readings.
Proof. intros readings. revert r. induction readings as [|now rest IH]; intros r; [reflexivity|]. rewrite wakes_eq. cbn [fst length]. rewrite IH. reflexivity. Qed.

Notation periods n d := (inject_Z (Z.of_nat n) * d) (only parsing).

(** C58.  Callers on time are woken exactly one period apart: the i-th time i+1 periods after the
    start. *)
Theorem C58_on_time_callers_keep_the_period :
  forall hz t0 readings, 0 < hz ->
    on_time t0 (1 / hz) readings (fst (wakes (new_rate t0 hz) readings)) ->
    forall i w, nth_error (fst (wakes (new_rate t0 hz) readings)) i = Some w -> w == t0 + periods (S i) (1 / hz).
Proof.
  intros hz t0 readings P O.
  assert (D : 0 < 1 / hz) by (apply Qlt_shift_div_l; [exact P|lra]).
  assert (G : forall readings r t, sleep_dur r = 1 / hz -> last_time r == t -> on_time t (1 / hz) readings (fst (wakes r readings)) ->
              forall i w, nth_error (fst (wakes r readings)) i = Some w -> w == t + periods (S i) (1 / hz)).
  { clear O readings. induction readings as [|now rest IH]; intros r t Ed El O i w E; [destruct i; discriminate|].
    rewrite wakes_eq in O, E. cbn [fst on_time] in O. destruct O as ((O1 & O2) & O3). cbn [fst] in E.
    assert (Pd : 0 < sleep_dur r) by (rewrite Ed; exact D). assert (Ll : last_time r <= now) by lra.
    destruct (sleep_cases r now Pd Ll) as (Ed' & C). cbv zeta in Ed', C.
    assert (W : now + snd (sleep_logic r now) == t + 1 / hz) by (rewrite Ed in C; lra).
    assert (L' : last_time (fst (sleep_logic r now)) == now + snd (sleep_logic r now)) by (rewrite Ed in C; lra).
    destruct i as [|i]; cbn [nth_error] in E.
    - injection E as <-. rewrite W. change (inject_Z (Z.of_nat 1)) with 1. lra.
    - rewrite (IH _ _ (eq_trans Ed' Ed) L' O3 i w E), W. rewrite (Nat2Z.inj_succ (S i)). unfold Z.succ. rewrite inject_Z_plus. change (inject_Z 1) with 1. lra. }
  apply (G readings (new_rate t0 hz) t0); [reflexivity|reflexivity|exact O].
Qed.
Print Assumptions C58_on_time_callers_keep_the_period.

Lemma wakes_bounds hz : 0 < 1 / hz -> forall readings r t, sleep_dur r = 1 / hz -> last_time r <= t ->
  monotone t readings (fst (wakes r readings)) ->
  forall i w, nth_error (fst (wakes r readings)) i = Some w -> last_time r + periods (S i) (1 / hz) <= w.
Proof.
  intros D. induction readings as [|now rest IH]; intros r t Ed El M i w E; [destruct i; discriminate|].
  rewrite wakes_eq in M, E. cbn [fst monotone] in M. destruct M as (M1 & M2). cbn [fst] in E.
  assert (Pd : 0 < sleep_dur r) by (rewrite Ed; exact D). assert (Ll : last_time r <= now) by lra.
  destruct (sleep_cases r now Pd Ll) as (Ed' & C). cbv zeta in Ed', C. rewrite Ed in C.
  assert (L1 : last_time r + 1 / hz <= last_time (fst (sleep_logic r now))) by lra.
  assert (L2 : last_time (fst (sleep_logic r now)) <= now + snd (sleep_logic r now)) by lra.
  destruct i as [|i]; cbn [nth_error] in E.
  - assert (Ew : now + snd (sleep_logic r now) = w) by congruence. rewrite <- Ew. change (inject_Z (Z.of_nat 1)) with 1. lra.
  - pose proof (IH _ _ (eq_trans Ed' Ed) L2 M2 i w E) as B. rewrite (Nat2Z.inj_succ (S i)). unfold Z.succ. rewrite inject_Z_plus. change (inject_Z 1) with 1. lra.
Qed.

(** C58.  Under a monotone clock, however late the caller, the average rate is never exceeded: the
    i-th wake-up is not before i+1 periods after the start. *)
Theorem C58_average_rate_not_exceeded :
  forall hz t0 readings, 0 < hz ->
    monotone t0 readings (fst (wakes (new_rate t0 hz) readings)) ->
    forall i w, nth_error (fst (wakes (new_rate t0 hz) readings)) i = Some w -> t0 + periods (S i) (1 / hz) <= w.
Proof.
  intros hz t0 readings P M. assert (D : 0 < 1 / hz) by (apply Qlt_shift_div_l; [exact P|lra]).
  apply (wakes_bounds hz D readings (new_rate t0 hz) t0); [reflexivity|apply Qle_refl|exact M].
Qed.
Print Assumptions C58_average_rate_not_exceeded.

(** C58.  Nor is it exceeded in any stretch, but for the two periods a late caller may catch up. *)
Theorem C58_catching_up_is_bounded :
  forall hz t0 readings, 0 < hz ->
    monotone t0 readings (fst (wakes (new_rate t0 hz) readings)) ->
    forall i j v w, (i <= j)%nat -> nth_error (fst (wakes (new_rate t0 hz) readings)) i = Some v ->
      nth_error (fst (wakes (new_rate t0 hz) readings)) j = Some w ->
      v + periods (j - i) (1 / hz) - 2 * (1 / hz) <= w.
Proof.
  intros hz t0 readings P M. assert (D : 0 < 1 / hz) by (apply Qlt_shift_div_l; [exact P|lra]).
  assert (G : forall readings r t, sleep_dur r = 1 / hz -> last_time r <= t -> monotone t readings (fst (wakes r readings)) ->
    forall i j v w, (i <= j)%nat -> nth_error (fst (wakes r readings)) i = Some v -> nth_error (fst (wakes r readings)) j = Some w ->
      v + periods (j - i) (1 / hz) - 2 * (1 / hz) <= w).
  { clear M readings. induction readings as [|now rest IH]; intros r t Ed El M i j v w Lij E F; [destruct i; discriminate|].
    rewrite wakes_eq in M, E, F. cbn [fst monotone] in M. destruct M as (M1 & M2). cbn [fst] in E, F.
    assert (Pd : 0 < sleep_dur r) by (rewrite Ed; exact D). assert (Ll : last_time r <= now) by lra.
    destruct (sleep_cases r now Pd Ll) as (Ed' & C). cbv zeta in Ed', C. rewrite Ed in C.
    assert (L2 : last_time (fst (sleep_logic r now)) <= now + snd (sleep_logic r now)) by lra.
    assert (L3 : now + snd (sleep_logic r now) - 2 * (1 / hz) <= last_time (fst (sleep_logic r now))) by lra.
    destruct i as [|i], j as [|j]; cbn [nth_error] in E, F; try lia.
    - assert (Ev : now + snd (sleep_logic r now) = v) by congruence. assert (Ew : now + snd (sleep_logic r now) = w) by congruence. rewrite <- Ew, <- Ev. change (inject_Z (Z.of_nat (0 - 0))) with 0. lra.
    - assert (Ev : now + snd (sleep_logic r now) = v) by congruence. rewrite <- Ev. pose proof (wakes_bounds hz D rest _ _ (eq_trans Ed' Ed) L2 M2 j w F) as B.
      replace (S j - 0)%nat with (S j) by lia. lra.
    - replace (S j - S i)%nat with (j - i)%nat by lia. apply (IH _ _ (eq_trans Ed' Ed) L2 M2 i j v w); [lia|exact E|exact F]. }
  apply (G readings (new_rate t0 hz) t0); [reflexivity|apply Qle_refl|exact M].
Qed.
Print Assumptions C58_catching_up_is_bounded.

Example C58_case :
  (* on time, at 4 Hz *)
  on_time 100 (1 / 4) [100; 803 # 8; 805 # 8] (fst (wakes (new_rate 100 4) [100; 803 # 8; 805 # 8])) /\
  (* late by two periods, then catching up *)
  monotone 100 [403 # 4; 403 # 4; 403 # 4; 403 # 4] (fst (wakes (new_rate 100 4) [403 # 4; 403 # 4; 403 # 4; 403 # 4])) /\
  nth_error (fst (wakes (new_rate 100 4) [403 # 4; 403 # 4; 403 # 4; 403 # 4])) 3 <> None.
Proof. split; [vm_compute; intuition discriminate|]. split; [vm_compute; intuition discriminate|discriminate]. Qed.


(** ** C64: termination on a timeout *)

(** The time of the last message among events. *)
Definition last_message (es : list timeout_event) : option Q :=
  fold_left (fun l e => match e with Keepalive t => Some t | Poll _ => l end) es None.

(** The last of the events is a poll that finds the last message [limit] or more ago. *)
Definition timed_out (limit : Q) (es : list timeout_event) : Prop :=
  exists before now t, es = before ++ [Poll now] /\ last_message before = Some t /\ limit <= now - t.

(** C64.  TerminateOnTimeout terminates at the first poll that finds the last message the given time
    or more ago; never before a message has come. *)
Theorem C64_terminates_exactly_on_timeout :
  forall limit es,
    (forall k, timeout_run limit None es = Some k <->
       (1 <= k <= length es)%nat /\ timed_out limit (firstn k es) /\ forall j, (1 <= j < k)%nat -> ~ timed_out limit (firstn j es)) /\
    (timeout_run limit None es = None <-> forall j, (1 <= j <= length es)%nat -> ~ timed_out limit (firstn j es)).
Proof.
  intros limit es0.
  assert (G : forall es pre, (forall k, timeout_run limit (last_message pre) es = Some k ->
                 (1 <= k <= length es)%nat /\ timed_out limit (pre ++ firstn k es) /\ forall j, (1 <= j < k)%nat -> ~ timed_out limit (pre ++ firstn j es)) /\
               (timeout_run limit (last_message pre) es = None -> forall j, (1 <= j <= length es)%nat -> ~ timed_out limit (pre ++ firstn j es))).
  { induction es as [|e es IH]; intros pre; cbn [timeout_run].
    - split; [discriminate|]. intros _ j Hj. cbn in Hj. lia.
    - assert (St : fst (timeout_step limit (last_message pre) e) = last_message (pre ++ [e])).
      { unfold last_message. rewrite fold_left_app. destruct e; reflexivity. }
      assert (Ra : snd (timeout_step limit (last_message pre) e) = true <-> timed_out limit (pre ++ [e])).
      { destruct e as [now|now]; cbn [timeout_step snd].
        - split; [discriminate|]. intros (b & n & t & E & _). apply app_inj_tail in E. destruct E as [_ E]. discriminate.
        - destruct (last_message pre) as [t|] eqn:L.
          + rewrite Qle_bool_iff. split; [intros H; exists pre, now, t; auto|]. intros (b & n & t' & E & Lb & H). apply app_inj_tail in E.
            destruct E as [-> E]. injection E as ->. assert (t = t') as -> by congruence. exact H.
          + split; [discriminate|]. intros (b & n & t' & E & Lb & H). apply app_inj_tail in E. destruct E as [-> _]. congruence. }
      destruct (timeout_step limit (last_message pre) e) as [s' r]. cbn [fst snd] in *. subst s'.
      destruct (IH (pre ++ [e])) as (I1 & I2). assert (Ap : forall l, (pre ++ [e]) ++ l = pre ++ e :: l) by (intros l; rewrite <- app_assoc; reflexivity).
      destruct r.
      + split; [|discriminate]. intros k E. injection E as <-. split; [cbn [length]; lia|]. split; [apply Ra; reflexivity|]. intros j Hj. lia.
      + assert (Nr : ~ timed_out limit (pre ++ [e])) by (intros F; apply Ra in F; discriminate).
        split.
        * intros k E. destruct (timeout_run _ _ es) as [k'|]; [|discriminate]. injection E as <-. destruct (I1 k' eq_refl) as (L & R & N).
          split; [cbn [length]; lia|]. split; [cbn [firstn]; rewrite <- Ap; exact R|]. intros [|[|j]] Hj; [lia|exact Nr|].
          change (firstn (S (S j)) (e :: es)) with (e :: firstn (S j) es). rewrite <- Ap. apply N. lia.
        * intros E. destruct (timeout_run _ _ es) as [k'|]; [discriminate|]. intros [|[|j]] Hj; [lia|exact Nr|].
          change (firstn (S (S j)) (e :: es)) with (e :: firstn (S j) es). rewrite <- Ap. apply I2; [reflexivity|]. cbn [length] in Hj. lia. }
  destruct (G es0 []) as (G1 & G2). cbn [app] in G1, G2. change (last_message []) with (@None Q) in *. split.
  - intros k. split; [exact (G1 k)|]. intros (L & R & N). destruct (timeout_run limit None es0) as [k'|] eqn:E.
    + destruct (G1 k' eq_refl) as (L' & R' & N'). f_equal.
      destruct (Compare_dec.lt_eq_lt_dec k' k) as [[F|F]|F]; [|exact F|]; exfalso; [apply (N k'); [lia|exact R']|apply (N' k); [lia|exact R]].
    + exfalso. exact (G2 eq_refl k L R).
  - split; [exact G2|]. intros N. destruct (timeout_run limit None es0) as [k'|] eqn:E; [|reflexivity].
    destruct (G1 k' eq_refl) as (L' & R' & _). exfalso. exact (N k' L' R').
Qed.
Print Assumptions C64_terminates_exactly_on_timeout.

Example C64_case :
  timeout_run 2 None [Poll 5; Keepalive 6; Poll 7; Keepalive (15 # 2); Poll 9; Poll (19 # 2); Poll 10] = Some 6%nat /\
  timeout_run 2 None [Poll 5; Poll 50] = None.
Proof. split; reflexivity. Qed.
