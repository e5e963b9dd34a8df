(* C89: requests to processes end, and what can hold them up. *)

From Coq Require Import List Arith Bool Lia.
From Verif Require Import RouteModel RouteSpec RouteProofs.
Import ListNotations.

(** Whatever has happened: if every connected process reads what is written to it, or what is still to be
    written to it fits in its buffer, then all commands, requests and reports end by themselves, before more
    time passes than the longest time-out. *)
Theorem C89_everything_ends (high low : nat) (l : list label) (s : st) (reads : nat -> bool) (T : nat) :
  run high low init l = Some s ->
  (forall p, live s p -> reads p = true \/ calm high s p) ->
  (forall i p z d, is_task s i (Route p z d) -> d <= T) ->
  exists l' s', run high low s l' = Some s' /\ Forall (allowed reads) l' /\ how_many is_tick l' <= T /\ all_ended s'.
Proof.
  intros R SD W. pose proof (run_inv high low _ _ _ inv_init R) as I. apply everything_ends; auto.
  - eapply dl_run; [exact inv_init| |exact R]. intros i p z d e H. destruct i; discriminate.
  - intros i p z d a H. apply sk_inv in H. destruct H as (t & F & K & _). eapply W. exists t. eauto.
Qed.

(** The server never goes round in circles: it makes at most five moves for each thing it is asked and two for
    each process, in whatever order things happen. *)
Theorem C89_few_moves (high low : nat) (l : list label) (s : st) :
  run high low init l = Some s -> how_many own l <= 5 * how_many asks l + 2 * how_many joins l.
Proof. intros R. pose proof (few_moves high low _ _ _ inv_init R) as H. unfold mu, wsum, psum in H. cbn in H. lia. Qed.

(** Killing the processes that do not read ends whatever waits for them. *)
Theorem C89_kill_frees (high low : nat) (l : list label) (s : st) (reads : nat -> bool) (T : nat) (ps : list nat) :
  run high low init l = Some s ->
  (forall p, In p ps -> p < length (procs s)) ->
  (forall p, live s p -> reads p = true \/ calm high s p \/ In p ps) ->
  (forall i p z d, is_task s i (Route p z d) -> d <= T) ->
  exists l' s', run high low s (map Kill ps ++ l') = Some s' /\ Forall (allowed reads) l' /\ how_many is_tick l' <= T /\ all_ended s'.
Proof.
  intros R IN SD W. destruct (kill_all high low ps s IN) as (s1 & R1 & E & Q).
  assert (R2 : run high low init (l ++ map Kill ps) = Some s1) by (rewrite run_app, R; exact R1).
  destruct (C89_everything_ends high low _ _ reads T R2) as (l' & s' & A & B & C & D).
  - intros p (x & P & G). destruct (Q p x P) as (x0 & P0 & BF & H). destruct (H G) as (G0 & NI). destruct (SD p) as [H1|[(H1 & H2)|H1]]; [exists x0; auto|auto| |tauto]. right. split.
    + intros y Y. rewrite P in Y. injection Y as <-. rewrite BF, outstanding_sk, E, <- outstanding_sk. apply H1, P0.
    + intros i t F AT TG. pose proof (sk_some _ _ _ F) as F'. rewrite E in F'. apply sk_inv in F'. destruct F' as (u & U1 & U2 & U3). apply (H2 i u U1); [congruence|]. unfold target in *. rewrite U2. exact TG.
  - intros i p z d (t & F & K). pose proof (sk_some _ _ _ F) as F'. rewrite E in F'. apply sk_inv in F'. destruct F' as (u & U1 & U2 & U3). apply (W i p z d). exists u. split; [exact U1|congruence].
  - exists l', s'. rewrite run_app, R1. auto.
Qed.

(** A request ends like this only with good reason: an answer is the owner's own, a time-out means that the time
    given has passed since the request was sent, and the other outcomes mean that the process is gone, or was not
    there, or that a process that was not asked has answered. *)
Theorem C89_justified (high low : nat) (l : list label) (s : st) (i p z d : nat) (o : outcome) :
  run high low init l = Some s -> is_task s i (Route p z d) -> ended s i o -> justified l i p d o.
Proof.
  intros R (t & F & K) (u & F2 & A). rewrite F in F2. injection F2 as <-. pose proof (jrun high low l [] _ _ inv_init jinv_init R) as J. pose proof (j_t _ _ J _ _ F) as H. unfold TJ in H. rewrite K, A in H. apply H.
Qed.

Theorem C89_final (high low : nat) (l l' : list label) (s s' : st) (i : nat) (o : outcome) :
  run high low init l = Some s -> ended s i o -> run high low s l' = Some s' -> ended s' i o.
Proof. intros R E R'. pose proof (run_inv high low _ _ _ inv_init R) as I. eapply final; eauto. Qed.

(** An answer of the owner that is handled while the request waits is what the asker gets. *)
Theorem C89_answer_counts (high low : nat) (l l' : list label) (s s1 s' : st) (i j p z d v e : nat) (t : task) (o : outcome) :
  run high low init l = Some s ->
  nth_error (tasks s) i = Some t -> knd t = Route p z d -> at_ t = Awaiting e -> res t = None ->
  is_task s j (Resp p i v) -> step high low s (Enter j) = Some s1 -> run high low s1 l' = Some s' -> ended s' i o -> o = Answered v.
Proof.
  intros R FT KT AT RT (u & FU & KU) ST R' (t' & F' & A').
  pose proof (run_inv high low _ _ _ inv_init R) as I. assert (P : pinv s) by (eapply prun; [|exact R]; intros k x H; destruct k; discriminate).
  pose proof (answer_settles high low _ _ _ _ _ _ _ _ _ _ _ P ST FU KU FT KT AT RT) as S1. pose proof (settled_run high low _ _ _ _ _ (step_inv _ _ _ _ _ I ST) S1 R') as (w & FW & KW & [A|(e' & A & _)]); rewrite F' in FW; injection FW as <-; congruence.
Qed.

(** Commands and requests take their turns in the order in which they were asked for. *)
Theorem C89_in_order (high low : nat) (l : list label) (s s' : st) (i j : nat) (t u : task) :
  run high low init l = Some s -> step high low s (Enter j) = Some s' ->
  nth_error (tasks s) j = Some u -> at_ u = WantLock -> nth_error (tasks s) i = Some t -> i < j -> at_ t <> WantLock.
Proof. intros R. pose proof (run_inv high low _ _ _ inv_init R) as I. eapply in_order; eauto. eapply fair_run; [exact inv_init|exact fair_init|exact R]. Qed.

(** While a request is being written to a process that has more unread than its buffer takes, and until that
    process reads or dies, nothing that waits for its turn, or is asked for later, begins. *)
Theorem C89_held_up (high low : nat) (l l' : list label) (s s' : st) (p i z d : nat) (t : task) (x : proc) (j : nat) (u : task) :
  run high low init l = Some s ->
  nth_error (tasks s) i = Some t -> knd t = Route p z d -> at_ t = Draining ->
  nth_error (procs s) p = Some x -> gone x = false -> low < buf x ->
  run high low s l' = Some s' -> (forall a, In a l' -> a <> Kill p /\ forall n, a <> Read p n) ->
  (forall v, nth_error (tasks s) j = Some v -> at_ v = WantLock) ->
  nth_error (tasks s') j = Some u -> at_ u = WantLock.
Proof.
  intros R FT KT AT P G B R' NH W FU. pose proof (run_inv high low _ _ _ inv_init R) as I.
  assert (H : held low p i s) by (exists t, z, d, x; auto 8).
  assert (NH' : forallb (fun a => negb (helps p a)) l' = true). { apply forallb_forall. intros a IN. destruct (NH a IN) as (A1 & A2). destruct a; auto; cbn; apply negb_true_iff, Nat.eqb_neq; intros ->; [eapply A2; eauto|congruence]. }
  destruct (held_run high low _ _ _ _ _ I H NH' R') as (_ & Z). eapply Z; [apply sk_some; exact FU|].
  destruct (nth_error (tasks s) j) as [v|] eqn:E; [left; exists (knd v); rewrite <- (W v eq_refl); apply sk_some, E|right; unfold sk; rewrite map_length; apply nth_error_None, E].
Qed.

Lemma own_or_tick_helps_not (q p : nat) (l : list label) : Forall (allowed (fun x => negb (x =? p))) l -> forall a, In a l -> a <> Kill p /\ forall n, a <> Read p n.
Proof.
  intros F a IN. rewrite Forall_forall in F. specialize (F a IN). destruct F as [F|[->|(r & n & -> & H)]]; [split; [intros ->; discriminate|intros n ->; discriminate]|split; discriminate|].
  split; [discriminate|]. intros n' [= -> _]. rewrite Nat.eqb_refl in H. discriminate.
Qed.

(** C89 finding: a request is written while the server-wide command lock is held; if the process it is for does not read (it is stopped, or busy), every command of everybody waits, without any time-out, until that process reads or dies. *)
Theorem C89_others_go_on_refuted (high low : nat) : low <= high ->
  ~ (forall l s i, run high low init l = Some s -> is_task s i Cmd ->
       exists l' s', run high low s l' = Some s' /\ Forall (allowed (fun p => negb (p =? 0))) l' /\ exists o, ended s' i o).
Proof.
  intros LH H. set (l := [NewProc; Ask (Route 0 (S high) 1); Ask Cmd; Enter 0; Write 0]).
  assert (C : (S high <=? high) = false) by (apply Nat.leb_gt; lia).
  destruct (run high low init l) as [s|] eqn:R; [|unfold l in R; cbn -[Nat.leb] in R; unfold write in R; cbn -[Nat.leb] in R; rewrite C in R; discriminate].
  pose proof (H l s 1 R) as Z. clear H. pose proof R as R0. unfold l in R. cbn -[Nat.leb] in R. unfold write in R. cbn -[Nat.leb] in R. rewrite C in R. cbn -[Nat.leb] in R. injection R as <-.
  destruct Z as (l' & s' & R' & F & o & (u & FU & AU)); [eexists; split; reflexivity|].
  assert (at_ u = WantLock); [|congruence].
  eapply (C89_held_up high low l l' _ s' 0 0 (S high) 1); [exact R0|reflexivity|reflexivity|reflexivity|reflexivity|reflexivity|cbn; lia|exact R'|apply own_or_tick_helps_not; auto| |exact FU].
  intros v [= <-]. reflexivity.
Qed.

(** C89 finding: the time-out of a request starts only when the request has been written; while the process does not read, the request does not time out. *)
Theorem C89_times_out_refuted (high low : nat) : low <= high ->
  ~ (forall l s i p z d, run high low init l = Some s -> is_task s i (Route p z d) ->
       exists l' s', run high low s l' = Some s' /\ Forall (allowed (fun q => negb (q =? p))) l' /\ exists o, ended s' i o).
Proof.
  intros LH H. set (l := [NewProc; Ask (Route 0 (S high) 1); Enter 0; Write 0]).
  assert (C : (S high <=? high) = false) by (apply Nat.leb_gt; lia).
  destruct (run high low init l) as [s|] eqn:R; [|unfold l in R; cbn -[Nat.leb] in R; unfold write in R; cbn -[Nat.leb] in R; rewrite C in R; discriminate].
  pose proof (H l s 0 0 (S high) 1 R) as Z. clear H. pose proof R as R0. unfold l in R. cbn -[Nat.leb] in R. unfold write in R. cbn -[Nat.leb] in R. rewrite C in R. cbn -[Nat.leb] in R. injection R as <-.
  destruct Z as (l' & s' & R' & F & o & (u & FU & AU)); [eexists; split; reflexivity|].
  pose proof (run_inv high low _ _ _ inv_init R0) as I.
  assert (HD : held low 0 0 (mkSt 0 [mkProc false false true (S high) [0]] [mkTask (Route 0 (S high) 1) Draining true None] [0])) by (do 4 eexists; repeat (split; [reflexivity|]); cbn; lia).
  assert (NH' : forallb (fun a => negb (helps 0 a)) l' = true). { apply forallb_forall. intros a IN. destruct (own_or_tick_helps_not 0 0 l' F a IN) as (A1 & A2). destruct a; auto; cbn; apply negb_true_iff, Nat.eqb_neq; intros ->; [eapply A2; eauto|congruence]. }
  destruct (held_run high low 0 0 l' _ s' I HD NH' R') as ((t & z & d & x & FT & _ & AT & _) & _). rewrite FU in FT. injection FT as <-. congruence.
Qed.

(** C89 finding: a request to another process that has already sent its answer neither gets that answer nor times out while the first process does not read, for both need the command lock. *)
Theorem C89_others_answered_refuted (high low : nat) : low <= high ->
  ~ (forall l s i p z d v, run high low init l = Some s -> is_task s i (Route p z d) -> In (Respond p i v) l -> p <> 0 ->
       exists l' s', run high low s l' = Some s' /\ Forall (allowed (fun q => negb (q =? 0))) l' /\ exists o, ended s' i o).
Proof.
  intros LH H. set (l := [NewProc; NewProc; Ask (Route 1 0 1); Enter 0; Write 0; Ask (Route 0 (S high) 1); Enter 1; Write 1; Respond 1 0 7]).
  assert (C : (S high <=? high) = false) by (apply Nat.leb_gt; lia). assert (C0 : (0 <=? high) = true) by reflexivity.
  destruct (run high low init l) as [s|] eqn:R; [|unfold l in R; cbn -[Nat.leb] in R; unfold write in R; cbn -[Nat.leb] in R; rewrite ?C, ?C0 in R; cbn -[Nat.leb] in R; rewrite ?C in R; discriminate].
  pose proof (H l s 0 1 0 1 7 R) as Z. clear H. pose proof R as R0. unfold l in R. cbn -[Nat.leb] in R. unfold write in R. cbn -[Nat.leb] in R. rewrite ?C, ?C0 in R. cbn -[Nat.leb] in R. rewrite ?C in R. cbn -[Nat.leb] in R. injection R as <-.
  destruct Z as (l' & s' & R' & F & o & E); [eexists; split; reflexivity|unfold l; cbn; tauto|discriminate|].
  pose proof (run_inv high low _ _ _ inv_init R0) as I. pose proof (own_or_tick_helps_not 0 0 l' F) as NH.
  (* it would have been answered or timed out, and both go through the command lock *)
  assert (ST : forall l1 s1, run high low (mkSt 0 [mkProc false false true (S high) [1]; mkProc false false true 0 []]
            [mkTask (Route 1 0 1) (Awaiting 1) true None; mkTask (Route 0 (S high) 1) Draining true None; mkTask (Resp 1 0 7) WantLock false None] [1; 2]) l1 = Some s1 ->
            (forall a, In a l1 -> a <> Kill 0 /\ forall n, a <> Read 0 n) -> inv s1 /\ held low 0 1 s1 /\ exists t, nth_error (tasks s1) 0 = Some t /\ knd t = Route 1 0 1 /\ (at_ t = Awaiting 1 \/ at_ t = WantAgain) /\ res t = None).
  { induction l1 as [|a l1 IH] using rev_ind; intros s1 R1 N1.
    - cbn in R1. injection R1 as <-. split; [exact I|]. split; [do 4 eexists; repeat (split; [reflexivity|]); cbn; lia|]. eexists. split; [reflexivity|]. auto.
    - rewrite run_app in R1. destruct (run high low _ l1) as [s2|] eqn:R2; [|discriminate]. destruct (IH s2 eq_refl) as (I2 & H2 & t & FT & KT & AT & RT); [intros b IN; apply N1, in_or_app; auto|].
      cbn [run] in R1. destruct (step high low s2 a) as [s3|] eqn:SS; [|discriminate]. injection R1 as <-. split; [eapply step_inv; eauto|].
      assert (HP : helps 0 a = false). { destruct (N1 a) as (A1 & A2); [apply in_or_app; right; left; reflexivity|]. destruct a; auto; cbn; apply Nat.eqb_neq; intros ->; [eapply A2; eauto|congruence]. }
      split; [exact (proj1 (held_step high low _ _ _ _ _ I2 H2 HP SS))|].
      assert (FI : first (cq s2) 1 = true). { destruct H2 as (w & z & d & x & W1 & W2 & W3 & _). eapply holder; eauto. }
      assert (SAME : forall s4, tasks s4 = tasks s2 -> exists t, nth_error (tasks s4) 0 = Some t /\ knd t = Route 1 0 1 /\ (at_ t = Awaiting 1 \/ at_ t = WantAgain) /\ res t = None) by (intros s4 ->; eauto 8).
      assert (OTHER : forall s4 j u, j <> 0 -> tasks s4 = set_nth j u (tasks s2) -> exists t, nth_error (tasks s4) 0 = Some t /\ knd t = Route 1 0 1 /\ (at_ t = Awaiting 1 \/ at_ t = WantAgain) /\ res t = None) by (intros s4 j u N E4; rewrite E4, nth_set_other by auto; eauto 8).
      assert (SP : forall s4 k, tasks s4 = tasks s2 -> exists t, nth_error (tasks (spawn s4 k)) 0 = Some t /\ knd t = Route 1 0 1 /\ (at_ t = Awaiting 1 \/ at_ t = WantAgain) /\ res t = None).
      { intros s4 k E4. cbn [spawn push_c tasks]. rewrite E4, nth_error_app1 by (eapply nth_len; eauto). eauto 8. }
      destruct a as [| |k|p r v|p z|p n|p|j|j|j|j|j|p]; cbn [step] in SS.
      + injection SS as <-. apply SAME. reflexivity.
      + injection SS as <-. apply SAME. reflexivity.
      + destruct k; try discriminate; injection SS as <-; apply SP; reflexivity.
      + destruct (nth_error (procs s2) p) as [x|]; [|discriminate]. destruct (negb (leaving x) && idle s2 p); [|discriminate]. injection SS as <-. apply SP; reflexivity.
      + destruct (nth_error (procs s2) p) as [x|]; [|discriminate]. destruct (negb (leaving x) && idle s2 p); [|discriminate]. injection SS as <-. apply SP; reflexivity.
      + destruct (nth_error (procs s2) p) as [x|]; [|discriminate]. destruct (negb (gone x) && (n <=? buf x)); [|discriminate]. injection SS as <-. apply SAME. reflexivity.
      + destruct (nth_error (procs s2) p) as [x|]; [|discriminate]. injection SS as <-. apply SAME. reflexivity.
      + exfalso. destruct (nth_error (tasks s2) j) as [u|] eqn:FJ; [|discriminate]. destruct (first (cq s2) j) eqn:FJ2; [|discriminate]. assert (j = 1). { destruct (cq s2); [discriminate|]. cbn in *. apply Nat.eqb_eq in FJ2. destruct n; [discriminate|]. destruct n; [exact FJ2|discriminate]. } subst j.
        destruct H2 as (w & z & d & x & W1 & W2 & W3 & _). rewrite FJ in W1. injection W1 as <-. unfold enter in SS. rewrite W2, W3 in SS. discriminate.
      + destruct (nth_error (tasks s2) j) as [u|] eqn:FJ; [|discriminate]. destruct (at_ u) eqn:AU; try discriminate. assert (NE : j <> 0) by (intros ->; rewrite FT in FJ; injection FJ as <-; destruct AT; congruence). unfold write in SS. destruct (nth_error (procs s2) (target u)) as [x|]; [|discriminate]. destruct (first (wq x) j); [|discriminate]. cbv zeta in SS. destruct (_ || _); injection SS as <-; [|eapply OTHER; eauto; reflexivity].
        unfold leave. destruct (knd u); try (match goal with |- context[if ?b then _ else _] => destruct b end); eapply OTHER; eauto; reflexivity.
      + destruct (nth_error (tasks s2) j) as [u|] eqn:FJ; [|discriminate]. destruct (at_ u) eqn:AU; try discriminate. assert (NE : j <> 0) by (intros ->; rewrite FT in FJ; injection FJ as <-; destruct AT; congruence). destruct (nth_error (procs s2) (target u)) as [x|]; [|discriminate]. destruct (gone x || (buf x <=? low)); [|discriminate]. injection SS as <-.
        unfold leave. destruct (knd u); try destruct (gone x); eapply OTHER; eauto; reflexivity.
      + destruct (nth_error (tasks s2) j) as [u|] eqn:FJ; [|discriminate]. destruct (at_ u) as [| | |e| |] eqn:AU; try discriminate. destruct (res u) eqn:RU; [discriminate|]. destruct (e <=? now s2); [|discriminate]. injection SS as <-.
        destruct (Nat.eq_dec j 0) as [->|NE]; [|eapply OTHER; eauto; reflexivity]. rewrite FT in FJ. injection FJ as <-. exists (set_at t WantAgain). cbn [push_c set_task tasks]. split; [apply (nth_set_same _ _ _ t), FT|]. cbn. auto.
      + destruct (nth_error (tasks s2) j) as [u|] eqn:FJ; [|discriminate]. destruct (at_ u) as [| | |e| |] eqn:AU; try discriminate. destruct (res u) as [o'|] eqn:RU; [|discriminate]. injection SS as <-.
        assert (NE : j <> 0) by (intros ->; rewrite FT in FJ; injection FJ as <-; congruence). eapply OTHER; eauto; reflexivity.
      + destruct (nth_error (procs s2) p) as [x|]; [|discriminate]. destruct (gone x && negb (leaving x) && idle s2 p); [|discriminate]. injection SS as <-. apply SP; reflexivity. }
  destruct (ST l' s' R' NH) as (_ & _ & t & FT & _ & AT & _). destruct E as (u & FU & AU). rewrite FT in FU. injection FU as <-. destruct AT; congruence.
Qed.

(** A request is answered, one times out, one finds its process gone and a command ends meanwhile; what is left
    ends by itself even though process 1 does not read. *)
Example C89_case :
  exists s, run 10 4 init
    [NewProc; NewProc; Ask (Route 0 5 3); Ask Cmd; Enter 0; Write 0; Enter 1; Respond 0 0 7; Enter 2; Take 0;
     Ask (Route 1 6 2); Enter 3; Write 3; Tick; Tick; Expire 3; Enter 3; Kill 0; Notice 0; Enter 4; Ask (Route 0 1 1); Enter 5; Ask (Route 1 2 1); Report 1 1] = Some s /\
  ended s 0 (Answered 7) /\ ended s 1 Ok /\ ended s 3 TimedOut /\ ended s 5 Unroutable /\
  (forall p, live s p -> (fun _ => false) p = true \/ calm 10 s p) /\
  (forall i p z d, is_task s i (Route p z d) -> d <= 3) /\ ~ all_ended s.
Proof.
  eexists. split; [vm_compute; reflexivity|]. repeat (split; [eexists; split; reflexivity|]). split; [|split].
  - intros p (x & P & G). right. destruct p as [|[|p]]; cbn in P; [injection P as <-; discriminate| |destruct p; discriminate]. split.
    + intros y [= <-]. vm_compute. lia.
    + intros i t F AT. do 8 (destruct i as [|i]; [cbn in F; injection F as <-; discriminate AT|]). destruct i; discriminate F.
  - intros i p z d (t & F & K). do 8 (destruct i as [|i]; [cbn in F; injection F as <-; cbn in K; try discriminate K; injection K as <- <- <-; lia|]). destruct i; discriminate F.
  - intros H. destruct (H 6) as (o & t & F & A); [cbn; lia|]. cbn in F. injection F as <-. discriminate A.
Qed.

Print Assumptions C89_everything_ends.
Print Assumptions C89_few_moves.
Print Assumptions C89_kill_frees.
Print Assumptions C89_justified.
Print Assumptions C89_final.
Print Assumptions C89_answer_counts.
Print Assumptions C89_in_order.
Print Assumptions C89_held_up.
Print Assumptions C89_others_go_on_refuted.
Print Assumptions C89_times_out_refuted.
Print Assumptions C89_others_answered_refuted.
