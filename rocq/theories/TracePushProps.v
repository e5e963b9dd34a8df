(* C87: what a process pushes of its traced samples, and closing its connection. *)

From Coq Require Import List Arith Bool Lia.
From Verif Require Import TracePushModel TracePushSpec TracePushProofs.
Import ListNotations.

(** Whatever happens, a sample is received at most once, by the stream or by a fetch, and each of the two in the order of recording. *)
Theorem C87_once_in_order : forall cap limit l s, run cap limit init l = Some s ->
  increasing (got s) /\ increasing (fetched s) /\ NoDup (got s ++ fetched s) /\ forall x, In x (got s ++ fetched s) -> x < count s.
Proof.
  intros cap limit l s R. destruct (run_oinv cap limit _ _ _ tinv_init oinv_init R) as [A B C D E].
  assert (IG : increasing (got s)). { unfold chain in A. apply increasing_app in A. tauto. }
  assert (IF : increasing (fetched s)). { apply increasing_app in C. tauto. }
  assert (INC : forall x, In x (got s) -> In x (chain s)) by (intros x X; unfold chain; rewrite !in_app_iff; auto).
  split; [exact IG|]. split; [exact IF|]. split.
  - apply increasing_NoDup in IG. apply increasing_NoDup in IF. clear -IG IF E INC.
    assert (AP : forall x, In x (fetched s) -> ~ In x (got s)) by (intros x X Y; exact (E x X (INC x Y))). clear E INC.
    induction (got s) as [|y g IH]; cbn; [exact IF|]. apply NoDup_cons_iff in IG. destruct IG as (G1 & G2). constructor.
    + rewrite in_app_iff. intros [Z|Z]; [auto|]. apply (AP y Z). now left.
    + apply IH; auto. intros x X Y. apply (AP x X). now right.
  - intros x X. apply in_app_or in X. destruct X; auto.
Qed.

(** What is recorded while tracing is off is never handed out, whatever follows. *)
Theorem C87_only_when_on : forall cap limit l1 s1 l2 s, run cap limit init l1 = Some s1 -> on s1 = false -> run cap limit s1 (Record :: l2) = Some s ->
  ~ In (count s1) (got s ++ fetched s).
Proof.
  intros cap limit l1 s1 l2 s R1 O R2 H. pose proof (run_tinv cap limit _ _ _ tinv_init R1) as T1. pose proof (run_oinv cap limit _ _ _ tinv_init oinv_init R1) as O1.
  cbn [run] in R2. destruct (step cap limit s1 Record) as [s2|] eqn:S2; [|discriminate].
  pose proof (step_tinv cap limit _ _ _ T1 S2) as T2.
  assert (X : In (count s1) (fetched s ++ chain s)). { unfold chain. rewrite !in_app_iff in *. tauto. }
  apply (run_members cap limit l2 s2 s _ T2 R2) in X; [|cbn in S2; injection S2 as <-; cbn; lia].
  destruct (step_members cap limit _ _ _ _ T1 S2 X) as [Y|(_ & Z & _)]; [|congruence].
  apply in_app_or in Y. destruct Y as [Y|Y]; [apply (o_fcount _ O1) in Y|apply (o_count _ O1) in Y]; lia.
Qed.

(** Once tracing is on, with no time limit, and as long as nobody changes that, fetches samples or ends the connection, and the
    buffer is not full when a sample is recorded: every sample recorded is with the server or on its way, and
    none is lost whatever else the process does. *)
Theorem C87_nothing_lost : forall cap limit l0 s0 s1 l s, Forall connected l0 -> run cap limit init l0 = Some s0 ->
  step cap limit s0 (Control true None) = Some s1 ->
  Forall undisturbed l -> roomy cap limit s1 l -> run cap limit s1 l = Some s ->
  forall k, count s0 <= k < count s ->
  In k (got s) \/ (exists b, In b (wire s) /\ In k b) \/ (exists i b, in_hand s i b /\ In k b) \/ In k (pend s).
Proof.
  intros cap limit l0 s0 s1 l s F R0 S1 U RM R k K. destruct (steady_on cap limit _ _ _ F R0 S1) as (ST & C1).
  destruct (steady_run cap limit _ _ _ ST U RM R) as (ST' & LE & CH). apply where_it_is; [apply ST'|]. rewrite CH. apply in_or_app. right. apply in_seq. lia.
Qed.

(** And it is enough that the process and the server go on by themselves for all of them to arrive. *)
Theorem C87_deliverable : forall cap limit l0 s0 s1 l s, 0 < limit -> Forall connected l0 -> run cap limit init l0 = Some s0 ->
  step cap limit s0 (Control true None) = Some s1 ->
  Forall undisturbed l -> roomy cap limit s1 l -> run cap limit s1 l = Some s ->
  exists l' s', Forall own l' /\ run cap limit s l' = Some s' /\ settled s' /\ count s' = count s /\
    forall k, count s0 <= k < count s -> In k (got s').
Proof.
  intros cap limit l0 s0 s1 l s LP F R0 S1 U RM R. destruct (steady_on cap limit _ _ _ F R0 S1) as (ST & C1).
  destruct (steady_run cap limit _ _ _ ST U RM R) as (ST' & LE & CH). destruct (deliverable cap limit s LP ST') as (l' & s' & FO & RO & SE & G & C).
  exists l', s'. repeat (split; [assumption|]). intros k K. rewrite G, CH. apply in_or_app. right. apply in_seq. lia.
Qed.

(** There is never more than one task that pushes, and one whenever tracing is on and the connection stands. *)
Theorem C87_one_pusher : forall cap limit l s, run cap limit init l = Some s ->
  (forall i j, pushing s i -> pushing s j -> i = j) /\ (Forall connected l -> on s = true -> exists i, pushing s i).
Proof.
  intros cap limit l s R. pose proof (run_tinv cap limit _ _ _ tinv_init R) as T. split.
  - intros i j A B. apply (t_handle _ T) in A. apply (t_handle _ T) in B. congruence.
  - intros F O. destruct (run_connected cap limit _ _ _ F R eq_refl eq_refl) as (CL & CN). destruct (t_on _ T O CL CN) as (i & H). exists i. apply (t_handle _ T), H.
Qed.

(** When tracing is off, or its time is over, a task that wakes ends, and sends nothing. *)
Theorem C87_off_ends : forall cap limit l s i s', run cap limit init l = Some s -> (on s = false \/ exists t, expires s = Some t /\ t <= now s) ->
  step cap limit s (Wake i) = Some s' -> (exists x, nth_error (tasks s') i = Some x /\ tp x = TDone) /\ wire s' = wire s /\ on s' = false.
Proof.
  intros cap limit l s i s' R H ST. pose proof (run_tinv cap limit _ _ _ tinv_init R) as T. pose proof (expire_tinv _ T) as T'.
  assert (OF : on (expire s) = false).
  { unfold expire. destruct H as [H|(t & E & L)]; [rewrite (t_ttl _ T H); exact H|]. rewrite E. destruct (now s <? t) eqn:Z; [apply Nat.ltb_lt in Z; lia|reflexivity]. }
  cbn [step] in ST. destruct (task_at s i) as [[]|] eqn:TA; try discriminate. injection ST as <-. destruct (task_at_spec _ _ _ TA) as (x & X & XP & XC).
  destruct (expire_rest s) as (E1 & E2 & E3 & E4 & E5 & E6 & E7 & E8 & E9 & E10 & E11).
  unfold wake. rewrite (t_off _ T' OF). rewrite firstn_nil, skipn_nil. unfold goes_on.
  assert (XX : expire (set_trace (expire s) (on (expire s)) (expires (expire s)) []) = set_trace (expire s) (on (expire s)) (expires (expire s)) []) by (apply expire_none; cbn; apply (t_ttl _ T' OF)).
  rewrite XX. cbn [set_trace on]. rewrite OF. unfold task_ends. cbn [set_tasks set_trace tasks wire on]. split; [|split; auto].
  exists (mkTask TDone false). split; [|reflexivity]. rewrite E1. eapply nth_set_same. exact X.
Qed.

(** close() returns, without waiting for the lock or the server, in at most six steps of the client itself: provided it does not cancel the I/O loop while that is switching tracing off. *)
Theorem C87_close_returns : forall cap limit l s, run cap limit init l = Some s -> timely cap limit init l -> closing s <> CNo ->
  exists l' s', Forall unwinding l' /\ length l' <= 6 /\ run cap limit s l' = Some s' /\ closing s' = CDone.
Proof.
  intros cap limit l s R TM NC. apply closes; [eapply run_tinv; [apply tinv_init|exact R]| |exact NC].
  eapply run_cinv; [apply tinv_init|intros Z; discriminate Z|exact TM|exact R].
Qed.

(** Once close() is over and no task holds a batch that it had taken before, nothing is sent any more: the server reads at most what
    was on its way. *)
Theorem C87_closed_is_quiet : forall cap limit l s l' s', run cap limit init l = Some s -> closing s = CDone -> (forall i b, ~ in_hand s i b) ->
  run cap limit s l' = Some s' -> exists rest, (got s' ++ concat (wire s')) ++ rest = got s ++ concat (wire s).
Proof.
  intros cap limit l s l' s' R C H R'. eapply quiet_run; [|exact R']. split; [exact C|]. split; [|exact H].
  eapply done_ended; [|exact R|exact C]. discriminate.
Qed.

(** One sample is recorded before tracing is on and three after, with replies and other commands in between; they arrive in two batches; then the process closes the connection. *)
Definition c87_l1 : list label :=
  [IoWrite; IoDrained; Record; Wake 0; Record; OtherWrite; OtherDrained; Write 0; Ping; Drained 0; Record; Wake 0; IoWrite; IoDrained; Write 0; Arrive; Drained 0; Arrive].
Definition c87_s0 : st := Eval vm_compute in match run 10 2 init [Record] with Some s => s | None => init end.
Definition c87_s1 : st := Eval vm_compute in match step 10 2 c87_s0 (Control true None) with Some s => s | None => init end.
Definition c87_s2 : st := Eval vm_compute in match run 10 2 c87_s1 c87_l1 with Some s => s | None => init end.
Definition c87_end : list label := [Record; Close; Die 0; CloseResume; IoCancelled; CloseEnd].

Lemma roomy_cons cap limit s a l s' : (a = Record -> length (pend s) < cap) -> step cap limit s a = Some s' -> roomy cap limit s' l -> roomy cap limit s (a :: l).
Proof. intros A B C. split; [exact A|]. intros s2 E. rewrite B in E. injection E as <-. exact C. Qed.
Lemma timely_cons cap limit s a l s' : timely_step s a -> step cap limit s a = Some s' -> timely cap limit s' l -> timely cap limit s (a :: l).
Proof. intros A B C. split; [exact A|]. intros s2 E. rewrite B in E. injection E as <-. exact C. Qed.

Example C87_case :
  Forall connected [Record] /\ run 10 2 init [Record] = Some c87_s0 /\ on c87_s0 = false /\ step 10 2 c87_s0 (Control true None) = Some c87_s1 /\
  Forall undisturbed c87_l1 /\ roomy 10 2 c87_s1 c87_l1 /\ run 10 2 c87_s1 c87_l1 = Some c87_s2 /\ got c87_s2 = [1; 2; 3] /\ settled c87_s2 /\ pushing c87_s2 0 /\
  timely 10 2 init ([Record; Control true None] ++ c87_l1 ++ [Record; Close]) /\
  (exists s, run 10 2 c87_s2 [Record; Close] = Some s /\ closing s = CAwaitTask 0) /\
  (exists s, run 10 2 c87_s2 c87_end = Some s /\ closing s = CDone /\ got s = [1; 2; 3] /\ forall i b, ~ in_hand s i b).
Proof.
  split; [repeat constructor|]. split; [reflexivity|]. split; [reflexivity|]. split; [reflexivity|]. split; [repeat constructor|].
  split. { unfold c87_l1. repeat (eapply roomy_cons; [intros _; cbn; lia|vm_compute; reflexivity|]). exact I. }
  split; [vm_compute; reflexivity|]. split; [vm_compute; reflexivity|].
  split. { split; [vm_compute; reflexivity|]. split; [vm_compute; reflexivity|]. intros [|i] b (x & X & XP & XC); [vm_compute in X; injection X as <-; discriminate|destruct i; discriminate X]. }
  split. { exists (mkTask TSleep false). vm_compute. repeat split; discriminate. }
  split. { unfold c87_l1. cbn [app]. repeat (eapply timely_cons; [cbn; try exact I; try (intros; discriminate)|vm_compute; reflexivity|]). exact I. }
  split; eexists; vm_compute; repeat split. intros [|i] b (x & X & XP & XC); [injection X as <-; discriminate|destruct i; discriminate X].
Qed.

(** C87 finding: close() hangs for ever, and with it the end of the process, if it is called while the I/O loop waits for the push task that it has just cancelled because tracing was switched off: the CancelledError is swallowed by suppress(CancelledError) around [await task] (processclient.py:456-457), so the I/O loop goes on reading requests, and close() waits for it (177-178) until the server drops the connection. *)
Theorem C87_close_hangs_refuted : exists l s, run 10 2 init l = Some s /\ closing s = CAwaitIo /\ conn s = true /\
  (forall l' s', ~ In Lost l' -> run 10 2 s l' = Some s' -> closing s' = CAwaitIo) /\
  exists s', run 10 2 s [Die 0; IoResume; IoWrite; IoDrained] = Some s' /\ io s' = IORead.
Proof.
  exists [Control true None; IoWrite; IoDrained; Control false None; Close]. eexists. split; [vm_compute; reflexivity|]. split; [reflexivity|]. split; [reflexivity|]. split.
  - assert (TRAP : forall l' s s', closing s = CAwaitIo /\ conn s = true /\ io s <> IOEnded /\ io_cancel s = false -> ~ In Lost l' -> run 10 2 s l' = Some s' -> closing s' = CAwaitIo).
    { induction l' as [|a l' IH]; intros s s' (A & B & C & D) N R; cbn [run] in R; [now injection R as <-|]. destruct (step 10 2 s a) as [s1|] eqn:S; [|discriminate].
      apply (IH s1); [|intros Z; apply N; now right|exact R]. assert (NL : a <> Lost) by (intros ->; apply N; now left). clear -A B C D S NL.
      eapply trapped; eauto. }
    intros l' s' N R. eapply TRAP; [|exact N|exact R]. cbn. repeat split; discriminate.
  - eexists. split; vm_compute; reflexivity.
Qed.

(** C87 finding: asking for a trace while one is on (another set_profiling_trace with enabled=True, say of a second viewer) drops the samples not yet pushed. *)
Theorem C87_second_control_drops_refuted : exists l s, Forall connected l /\ run 10 2 init l = Some s /\ on s = true /\ count s = 1 /\
  forall l' s', run 10 2 s l' = Some s' -> ~ In 0 (got s' ++ fetched s').
Proof.
  exists [Control true None; IoWrite; IoDrained; Record; Control true None]. eexists. split; [repeat constructor|]. split; [vm_compute; reflexivity|]. split; [reflexivity|]. split; [reflexivity|].
  intros l' s' R H. assert (X : In 0 (fetched s' ++ chain s')) by (unfold chain; rewrite !in_app_iff in *; tauto).
  eapply run_members in X; [|eapply (run_tinv 10 2 [Control true None; IoWrite; IoDrained; Record; Control true None]); [apply tinv_init|vm_compute; reflexivity]|exact R|cbn; lia]. vm_compute in X. exact X.
Qed.

(** C87 finding: a GET_PROFILING_TRACE_BATCH takes the samples it returns away from the subscribers of the trace: they never get them. *)
Theorem C87_fetch_steals_refuted : exists l s, Forall connected l /\ run 10 2 init l = Some s /\ on s = true /\ In 0 (fetched s) /\
  forall l' s', run 10 2 s l' = Some s' -> ~ In 0 (got s').
Proof.
  exists [Control true None; IoWrite; IoDrained; Record; Fetch 5]. eexists. split; [repeat constructor|]. split; [vm_compute; reflexivity|]. split; [reflexivity|]. split; [left; reflexivity|].
  intros l' s' R H.
  assert (R' : run 10 2 init ([Control true None; IoWrite; IoDrained; Record; Fetch 5] ++ l') = Some s') by (rewrite run_app; exact R).
  destruct (run_oinv 10 2 _ _ _ tinv_init oinv_init R') as [_ _ _ _ E]. apply (E 0); [|unfold chain; rewrite !in_app_iff; auto].
  eapply fetched_stays; [|exact R|left; reflexivity]. eapply (run_tinv 10 2 [Control true None; IoWrite; IoDrained; Record; Fetch 5]); [apply tinv_init|vm_compute; reflexivity].
Qed.

(** C87 finding: when the time of a trace is over, the samples recorded since the last push are dropped, although they were recorded in time. *)
Theorem C87_ttl_drops_refuted : exists l s, Forall connected l /\ run 10 2 init (l ++ [Record; Advance; Wake 0]) = Some s /\
  (exists s1, run 10 2 init l = Some s1 /\ on s1 = true /\ expires s1 = Some 1 /\ now s1 = 0 /\ count s1 = 0) /\
  forall l' s', run 10 2 s l' = Some s' -> ~ In 0 (got s' ++ fetched s').
Proof.
  exists [Control true (Some 1); IoWrite; IoDrained]. eexists. split; [repeat constructor|]. split; [vm_compute; reflexivity|]. split; [eexists; split; [vm_compute; reflexivity|repeat split]|].
  intros l' s' R H. assert (X : In 0 (fetched s' ++ chain s')) by (unfold chain; rewrite !in_app_iff in *; tauto).
  eapply run_members in X; [|eapply (run_tinv 10 2 [Control true (Some 1); IoWrite; IoDrained; Record; Advance; Wake 0]); [apply tinv_init|vm_compute; reflexivity]|exact R|cbn; lia]. vm_compute in X. exact X.
Qed.

(** C87 finding: a request to trace that arrives while close() waits for the push task starts another, which goes on after close() has returned, as long as nothing is recorded. *)
Theorem C87_pusher_survives_close_refuted : exists l s, timely 10 2 init l /\ run 10 2 init l = Some s /\ closing s = CDone /\ pushing s 1 /\
  forall n, exists s', run 10 2 s (repeat (Wake 1) n) = Some s' /\ pushing s' 1 /\ closing s' = CDone.
Proof.
  exists [Control true None; IoWrite; IoDrained; Close; Die 0; Control true None; CloseResume; IoCancelled; CloseEnd]. eexists.
  split. { vm_compute. repeat (split; [intros; try exact I; try discriminate; try (match goal with H : exists _, _ |- _ => destruct H as (? & H); discriminate H end)|]; intros ? [= <-]; vm_compute). exact I. }
  split; [vm_compute; reflexivity|]. split; [reflexivity|]. assert (P : pushing (mkSt true None 0 0 [] [mkTask TDone true; mkTask TSleep false] (Some 1) IOEnded false None CDone true [] [] []) 1) by (exists (mkTask TSleep false); cbn; repeat split; discriminate).
  split; [exact P|]. induction n as [|n IH]; [eexists; split; [reflexivity|]; split; [exact P|reflexivity]|]. cbn [repeat run]. exact IH.
Qed.

Print Assumptions C87_once_in_order.
Print Assumptions C87_only_when_on.
Print Assumptions C87_nothing_lost.
Print Assumptions C87_deliverable.
Print Assumptions C87_one_pusher.
Print Assumptions C87_off_ends.
Print Assumptions C87_close_returns.
Print Assumptions C87_closed_is_quiet.
Print Assumptions C87_close_hangs_refuted.
Print Assumptions C87_second_control_drops_refuted.
Print Assumptions C87_fetch_steals_refuted.
Print Assumptions C87_ttl_drops_refuted.
Print Assumptions C87_pusher_survives_close_refuted.
