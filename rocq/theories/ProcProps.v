(* C67, C68: how the processes of a pipeline start and end. *)

From Coq Require Import List Bool Arith Lia.
From Verif Require Import ProcModel ProcSpec ProcProofs.
Import ListNotations.

(* ---------- further lemmas ---------- *)

Section More.
Variable n : nat.
Variable conf : nat -> config.
Variable workers : nat.
Variable with_participant : bool.
Notation step := (step n conf workers).
Notation after := (after n conf workers with_participant).
Notation init := (init with_participant).

Lemma at_change s e s' j : step s e = Some s' -> at_ (procs s' j) <> at_ (procs s j) ->
  match at_ (procs s j) with
  | Setup => e = SetupFails j \/ e = SetupDone j \/ e = Crash j
  | AtStart => e = PassStart j \/ (e = StartBroken j /\ start_broken s = true)
  | Run => e = MainRaises j \/ e = Interrupt j \/ e = AllDone j \/ e = Crash j
  | AtStop => e = PassStop j /\ stop_open s = true
  | Shutdown => e = ShutFails j \/ e = Finish j
  | Ended _ => False
  end.
Proof.
  intros Hs Hn. apply step_shape in Hs.
  assert (Hloc : forall i p' , at_ p' = at_ (procs s i) -> at_ (upd i p' (procs s) j) = at_ (procs s j)).
  { intros i p' E. destruct (Nat.eq_dec j i) as [->|Hj]; [rewrite upd_same; exact E|rewrite upd_other by exact Hj; reflexivity]. }
  assert (Hmv : forall i p', at_ (upd i p' (procs s) j) <> at_ (procs s j) -> j = i).
  { intros i p' Hx. destruct (Nat.eq_dec j i) as [->|Hj]; [reflexivity|]. rewrite upd_other in Hx by exact Hj. congruence. }
  destruct e; cbn match in Hs.
  - destruct Hs as (Ea & _ & _ & ->). exfalso. apply Hn. apply Hloc. exact (eq_sym Ea).
  - destruct Hs as (Ea & _ & ->). apply Hmv in Hn. subst i. rewrite Ea. auto.
  - destruct Hs as (Ea & _ & _ & ->). apply Hmv in Hn. subst i. rewrite Ea. auto.
  - destruct Hs as (_ & [[_ ->]|[_ ->]]); exfalso; apply Hn; reflexivity.
  - destruct Hs as (Ea & _ & ->). apply Hmv in Hn. subst i. rewrite Ea. auto.
  - destruct Hs as (Ea & Hb & ->). apply Hmv in Hn. subst i. rewrite Ea. auto.
  - destruct Hs as (k & _ & ->). exfalso. apply Hn. apply Hloc. reflexivity.
  - destruct Hs as (_ & _ & _ & _ & ->). exfalso. apply Hn. apply Hloc. reflexivity.
  - destruct Hs as (_ & ->). exfalso. apply Hn. apply Hloc. reflexivity.
  - destruct Hs as (_ & ->). exfalso. apply Hn. apply Hloc. reflexivity.
  - destruct Hs as (_ & _ & _ & ->). exfalso. apply Hn. apply Hloc. reflexivity.
  - destruct Hs as (_ & _ & ->). exfalso. apply Hn. apply Hloc. reflexivity.
  - destruct Hs as (_ & _ & ->). exfalso. apply Hn. apply Hloc. reflexivity.
  - destruct Hs as (Ea & _ & ->). apply Hmv in Hn. subst i. rewrite Ea. auto.
  - destruct Hs as (Ea & ->). apply Hmv in Hn. subst i. rewrite Ea. auto.
  - destruct Hs as (Ea & _ & _ & ->). apply Hmv in Hn. subst i. rewrite Ea. auto.
  - destruct Hs as (Ea & Ho & ->). apply Hmv in Hn. subst i. rewrite Ea. auto.
  - destruct Hs as (_ & _ & ->). exfalso. apply Hn. reflexivity.
  - destruct Hs as (Ea & _ & ->). apply Hmv in Hn. subst i. rewrite Ea. auto.
  - destruct Hs as (Ea & _ & ->). apply Hmv in Hn. subst i. rewrite Ea. auto.
  - destruct Hs as (Ea & _ & ->). apply Hmv in Hn. subst i. destruct Ea as [Ea|Ea]; rewrite Ea; auto.
  - subst s'. exfalso. apply Hn. reflexivity.
Qed.

Lemma pc_dec (a b : pc) : {a = b} + {a <> b}.
Proof. repeat decide equality. Qed.

(** A process at the stop barrier stays there for ever if another one has gone. *)
Lemma stuck h s i j : after h s -> In (SetupFails i) h \/ In (Crash i) h -> at_ (procs s j) = AtStop ->
  forall h' s', after (h' ++ h) s' -> at_ (procs s' j) = AtStop.
Proof.
  intros Ha Hg Hj h'. induction h' as [|e h' IH]; intros s' Ha'.
  - rewrite (after_det _ _ _ _ _ _ Ha _ Ha'). exact Hj.
  - cbn [app] in Ha'. inversion Ha' as [|h0 s0 e0 s2 Ha0 Hs0]; subst. specialize (IH _ Ha0).
    destruct (pc_dec (at_ (procs s' j)) (at_ (procs s0 j))) as [E|Hn]; [congruence|].
    pose proof (at_change _ _ _ _ Hs0 Hn) as Hx. rewrite IH in Hx. destruct Hx as [_ Ho]. exfalso.
    assert (Hg' : In (SetupFails i) (h' ++ h) \/ In (Crash i) (h' ++ h)) by (destruct Hg; [left|right]; apply in_or_app; auto).
    destruct (iv_gone _ _ _ _ (after_Inv _ _ _ _ _ _ Ha0) i Hg') as (_ & _ & Hx). congruence.
Qed.

Lemma ended_for_good h s i c : after h s -> at_ (procs s i) = Ended c ->
  forall h' s', after (h' ++ h) s' -> at_ (procs s' i) = Ended c /\ shut_of s' i = shut_of s i.
Proof.
  intros Ha Hj h'. induction h' as [|e h' IH]; intros s' Ha'.
  - rewrite (after_det _ _ _ _ _ _ Ha _ Ha'). auto.
  - cbn [app] in Ha'. inversion Ha' as [|h0 s0 e0 s2 Ha0 Hs0]; subst. destruct (IH _ Ha0) as [IH1 IH2].
    split.
    + destruct (pc_dec (at_ (procs s' i)) (at_ (procs s0 i))) as [E|Hn]; [congruence|].
      pose proof (at_change _ _ _ _ Hs0 Hn) as Hx. rewrite IH1 in Hx. destruct Hx.
    + rewrite <- IH2. apply step_shape in Hs0. destruct e; cbn match in Hs0;
        repeat match goal with
               | H : _ /\ _ |- _ => destruct H
               | H : exists _, _ |- _ => destruct H
               | H : _ \/ _ |- _ => destruct H
               end; subst s'; try reflexivity.
      unfold shut_of. cbn [shut filter fst]. destruct (i0 =? i) eqn:E; [|reflexivity]. apply Nat.eqb_eq in E. subst i0. congruence.
Qed.

Lemma set_up_le h s : after h s -> forall i, set_up (procs s i) <= units (conf i).
Proof.
  induction 1 as [|h s e s' Ha IH Hs]; intros j; [apply Nat.le_0_l|]. specialize (IH j). apply step_shape in Hs.
  assert (Hone : forall i p', set_up p' <= units (conf i) \/ set_up p' = set_up (procs s i) ->
                 set_up (upd i p' (procs s) j) <= units (conf j)).
  { intros i p' Hp. destruct (Nat.eq_dec j i) as [->|Hj]; [rewrite upd_same; destruct Hp; lia|rewrite upd_other by exact Hj; exact IH]. }
  destruct e; cbn match in Hs;
        repeat match goal with
               | H : _ /\ _ |- _ => destruct H
               | H : exists _, _ |- _ => destruct H
               | H : _ \/ _ |- _ => destruct H
               end; subst s'; cbn [procs set_proc set_term come_to_start come_to_stop]; try exact IH;
    try (apply Hone; right; reflexivity); try (apply Hone; left; cbn; lia).
Qed.

Lemma open_stays s e s' h : after h s -> step s e = Some s' -> start_open s = true -> start_open s' = true.
Proof.
  intros Ha Hs Ho. pose proof (after_Inv _ _ _ _ _ _ Ha) as I. apply step_shape in Hs.
  destruct e; cbn match in Hs;
        repeat match goal with
               | H : _ /\ _ |- _ => destruct H
               | H : exists _, _ |- _ => destruct H
               | H : _ \/ _ |- _ => destruct H
               end; subst s'; cbn [start_open set_proc set_term come_to_start come_to_stop]; auto.
  - rewrite Ho. reflexivity.
  - destruct (iv_open _ _ _ _ I Ho) as (Hx & _). congruence.
Qed.

Lemma late_open h s : after h s -> Forall good_event h -> forall i, late (procs s i) -> start_open s = true.
Proof.
  induction 1 as [|h s e s' Ha IH Hs]; intros Hg i Hl.
  - destruct Hl as [Hl|[Hl|[c Hl]]]; discriminate Hl.
  - apply Forall_cons_iff in Hg. destruct Hg as [Hge Hg]. eapply open_stays; eauto.
    pose proof (after_Inv _ _ _ _ _ _ Ha) as I.
    destruct (pc_dec (at_ (procs s' i)) (at_ (procs s i))) as [E|Hn].
    + apply (IH Hg i). unfold late in *. rewrite <- E. exact Hl.
    + pose proof (at_change _ _ _ _ Hs Hn) as Hx. destruct (at_ (procs s i)) eqn:Ea.
      * destruct Hx as [->|[->| ->]]; try contradiction Hge. exfalso.
        apply step_shape in Hs. cbn match in Hs. destruct Hs as (_ & _ & _ & ->).
        unfold late, come_to_start in Hl. cbn [procs] in Hl. rewrite upd_same in Hl.
        destruct Hl as [Hl|[Hl|[c Hl]]]; discriminate Hl.
      * destruct Hx as [->|[-> Hb]].
        -- apply step_shape in Hs. cbn match in Hs. tauto.
        -- exfalso. destruct (good_Inv _ _ _ _ _ _ Ha Hg) as [Hx _]. congruence.
      * apply (iv_run _ _ _ _ I i Ea).
      * apply (IH Hg i). left. exact Ea.
      * apply (IH Hg i). right. left. exact Ea.
      * destruct Hx.
Qed.

Lemma progress h s : after h s -> Forall good_event h -> (forall i, i < n -> threads (conf i) < workers) ->
  (forall e, unavoidable e -> step s e = None) -> (forall i, in_main (procs s i) = false) ->
  (term_ev s = true \/ forall i, running (procs s i) = []) ->
  forall i, i < n -> at_ (procs s i) = Ended true.
Proof.
  intros Ha Hg Hw Hno Hmain Hterm. pose proof (after_Inv _ _ _ _ _ _ Ha) as I.
  destruct (good_Inv _ _ _ _ _ _ Ha Hg) as (Hb & Hf & Hended & Hth).
  assert (Hp : participant s = false).
  { destruct (participant s) eqn:Ep; [|reflexivity]. specialize (Hno ParticipantComes Logic.I). cbn [ProcModel.step] in Hno. rewrite Ep, Hb in Hno. discriminate Hno. }
  assert (H1 : forall i, i < n -> at_ (procs s i) <> Setup).
  { intros i Hi Ea. pose proof (set_up_le _ _ Ha i) as Hle. destruct (Nat.eq_dec (set_up (procs s i)) (units (conf i))) as [E|Hne].
    - specialize (Hno (SetupDone i) Logic.I). cbn [ProcModel.step] in Hno. rewrite Ea, E, Nat.eqb_refl in Hno.
      apply Nat.ltb_lt in Hi. rewrite Hi in Hno. discriminate Hno.
    - specialize (Hno (SetupUnit i) Logic.I). cbn [ProcModel.step] in Hno. rewrite Ea in Hno.
      apply Nat.ltb_lt in Hi. rewrite Hi in Hno. cbn [andb] in Hno.
      replace (set_up (procs s i) <? units (conf i)) with true in Hno by (symmetry; apply Nat.ltb_lt; lia). discriminate Hno. }
  assert (H2 : forall i, i < n -> at_ (procs s i) <> AtStart).
  { intros i Hi Ea. destruct (start_open s) eqn:Eo.
    - specialize (Hno (PassStart i) Logic.I). cbn [ProcModel.step] in Hno. rewrite Ea, Eo in Hno. discriminate Hno.
    - enough (start_open s = true) by congruence. apply (iv_starts _ _ _ _ I); auto; [lia|].
      intros j Hj. destruct (at_ (procs s j)) eqn:Ej; [exfalso; apply (H1 j Hj Ej)|reflexivity| | | |]; exfalso.
      + rewrite (iv_run _ _ _ _ I j Ej) in Eo. discriminate Eo.
      + rewrite (late_open _ _ Ha Hg j) in Eo; [discriminate Eo|]. left. exact Ej.
      + rewrite (late_open _ _ Ha Hg j) in Eo; [discriminate Eo|]. right. left. exact Ej.
      + rewrite (late_open _ _ Ha Hg j) in Eo; [discriminate Eo|]. right. right. eauto. }
  assert (H3 : forall i, i < n -> at_ (procs s i) <> Run).
  { intros i Hi Ea. destruct (running (procs s i)) as [|k r] eqn:Er.
    - specialize (Hno (AllDone i) Logic.I). cbn [ProcModel.step] in Hno. rewrite Ea, Er, Hmain in Hno. discriminate Hno.
    - destruct Hterm as [Ht|Hr]; [|rewrite Hr in Er; discriminate Er].
      destruct (monitor (procs s i)) eqn:Em.
      + specialize (Hno (TaskCancelled i k) Logic.I). cbn [ProcModel.step] in Hno. rewrite Er, Em, Ht in Hno.
        cbn [existsb] in Hno. rewrite Nat.eqb_refl in Hno. discriminate Hno.
      + specialize (Hno (MonitorStarts i) Logic.I). cbn [ProcModel.step] in Hno. rewrite Ea, Em, (iv_run _ _ _ _ I i Ea) in Hno.
        cbn [negb andb] in Hno. replace (in_threads (procs s i) <? workers) with true in Hno; [discriminate Hno|].
        symmetry. apply Nat.ltb_lt. specialize (Hth i). specialize (Hw i Hi). lia. }
  assert (Hstop : forall i, i < n -> stop_open s = true).
  { intros i0 Hi0. destruct (stop_open s) eqn:Eo; [reflexivity|]. enough (stop_open s = true) by congruence.
    apply (iv_stops _ _ _ _ I); [lia|]. intros j Hj. destruct (at_ (procs s j)) eqn:Ej.
    - exfalso; apply (H1 j Hj Ej).
    - exfalso; apply (H2 j Hj Ej).
    - exfalso; apply (H3 j Hj Ej).
    - reflexivity.
    - exfalso. rewrite (iv_shutdown _ _ _ _ I j Ej) in Eo. discriminate Eo.
    - exfalso. destruct (iv_ended _ _ _ _ I j _ Ej) as [Hx|[Hx|Hx]]; [congruence| |];
        rewrite Forall_forall in Hg; destruct (Hg _ Hx). }
  intros i Hi. destruct (at_ (procs s i)) eqn:Ea; [exfalso|exfalso|exfalso|exfalso|exfalso|].
  - apply (H1 i Hi Ea).
  - apply (H2 i Hi Ea).
  - apply (H3 i Hi Ea).
  - specialize (Hno (PassStop i) Logic.I). cbn [ProcModel.step] in Hno. rewrite Ea, (Hstop i Hi) in Hno. discriminate Hno.
  - destruct (proj1 (shut_list _ _ _ _ _ _ Ha) i) as [_ Hle]. unfold shut_of in Hle.
    destruct (Nat.eq_dec (length (filter (fun x => fst x =? i) (shut s))) (units (conf i))) as [E|Hne].
    + specialize (Hno (Finish i) Logic.I). cbn [ProcModel.step] in Hno. rewrite Ea, E, Nat.eqb_refl in Hno. discriminate Hno.
    + specialize (Hno (ShutUnit i) Logic.I). cbn [ProcModel.step] in Hno. rewrite Ea in Hno. cbv zeta in Hno.
      replace (length (filter (fun x => fst x =? i) (shut s)) <? units (conf i)) with true in Hno; [discriminate Hno|].
      symmetry. apply Nat.ltb_lt. lia.
  - rewrite (Hended i _ Ea). reflexivity.
Qed.

Fixpoint play (s : system) (evs : list event) : option system :=
  match evs with
  | [] => Some s
  | e :: r => match step s e with Some s' => play s' r | None => None end
  end.

Lemma play_after evs : forall h s s', after h s -> play s evs = Some s' -> after (rev evs ++ h) s'.
Proof.
  induction evs as [|e r IH]; intros h s s' Ha Hp; cbn in *; [congruence|].
  destruct (step s e) as [s1|] eqn:Es; [|discriminate Hp].
  rewrite <- app_assoc. cbn [app]. apply (IH (e :: h) s1); [econstructor; eauto|exact Hp].
Qed.

Lemma play_init evs s : play init evs = Some s -> after (rev evs) s.
Proof. intros Hp. rewrite <- (app_nil_r (rev evs)). eapply play_after; [constructor|exact Hp]. Qed.

End More.

Definition end_of (n : nat) (conf : nat -> config) (workers : nat) (wp : bool) (evs : list event) : system :=
  match play n conf workers (init wp) evs with Some s => s | None => init wp end.

(* ---------- C67: starting ---------- *)

(** Before a coroutine, thread function or main function runs anywhere, every unit of every process
    has been set up. *)
Theorem C67_all_set_up_before_any_runs :
  forall (n : nat) (conf : nat -> config) (workers : nat) (with_participant : bool) (h : list event) (s : system) (i : nat),
  after n conf workers with_participant h s -> active s i ->
  i < n /\ forall j, j < n -> units_set_up j h = units (conf j).
Proof.
  intros n conf workers wp h s i Ha Hact. pose proof (after_Inv _ _ _ _ _ _ Ha) as I.
  assert (Hni : ~ idle (procs s i)).
  { intros (H1 & H2 & H3). destruct Hact as [Hx|[Hx|Hx]]; congruence. }
  pose proof (iv_active _ _ _ _ I i Hni) as Ho. split.
  - destruct (le_lt_dec n i) as [Hl|Hl]; [|exact Hl]. exfalso. apply Hni. apply (iv_early _ _ _ _ I). left. apply (iv_out _ _ _ _ I i Hl).
  - intros j Hj. rewrite <- (iv_setup _ _ _ _ I j). destruct (iv_open _ _ _ _ I Ho) as (_ & _ & Hx). apply Hx. exact Hj.
Qed.
Print Assumptions C67_all_set_up_before_any_runs.

(** If setting up fails in one process, nothing runs in any of them, ever. *)
Theorem C67_failed_setup_runs_nothing :
  forall (n : nat) (conf : nat -> config) (workers : nat) (with_participant : bool) (h : list event) (s : system) (i : nat),
  after n conf workers with_participant h s -> In (SetupFails i) h ->
  (forall j, ~ active s j) /\ forall j, ~ In (PassStart j) h.
Proof.
  intros n conf workers wp h s i Ha Hf.
  assert (Hso : forall h s, after n conf workers wp h s -> In (SetupFails i) h -> start_open s = false).
  { clear. intros h s Ha Hf. pose proof (after_Inv _ _ _ _ _ _ Ha) as I. destruct (start_open s) eqn:Eo; [|reflexivity].
    destruct (iv_open _ _ _ _ I Eo) as (_ & Hb & _). rewrite (iv_broken _ _ _ _ I i Hf) in Hb. discriminate Hb. }
  split.
  - intros j Hact. pose proof (after_Inv _ _ _ _ _ _ Ha) as I. specialize (Hso h s Ha Hf). rewrite (iv_active _ _ _ _ I j) in Hso; [discriminate Hso|].
    intros (H1 & H2 & H3). destruct Hact as [Hx|[Hx|Hx]]; congruence.
  - intros j Hj.
    assert (Hopen : forall h s, after n conf workers wp h s -> In (PassStart j) h -> start_open s = true).
    { clear. induction 1 as [|h s e s' Ha IH Hs]; intros Hi; [destruct Hi|]. eapply open_stays; eauto.
      destruct Hi as [->|Hi]; [|apply IH; exact Hi]. apply step_shape in Hs. cbn match in Hs. tauto. }
    specialize (Hopen _ _ Ha Hj). rewrite (Hso _ _ Ha Hf) in Hopen. discriminate Hopen.
Qed.
Print Assumptions C67_failed_setup_runs_nothing.

(** When all processes, and GraphRunner.start if it takes part, have come to the start barrier,
    each of them goes on to run, with all its coroutines, thread functions and its main function. *)
Theorem C67_all_start :
  forall (n : nat) (conf : nat -> config) (workers : nat) (with_participant : bool) (h : list event) (s : system) (i : nat),
  after n conf workers with_participant h s -> participant s = false -> (forall j, ~ In (SetupFails j) h) ->
  (forall j, j < n -> at_ (procs s j) = AtStart) -> i < n ->
  exists s', step n conf workers s (PassStart i) = Some s' /\ at_ (procs s' i) = Run /\
             running (procs s' i) = seq 0 (tasks (conf i)) /\ in_threads (procs s' i) = threads (conf i) /\
             in_main (procs s' i) = has_main (conf i).
Proof.
  intros n conf workers wp h s i Ha Hp Hnf Hall Hi. pose proof (after_Inv _ _ _ _ _ _ Ha) as I.
  assert (Hb : start_broken s = false).
  { destruct (start_broken s) eqn:Eb; [|reflexivity]. destruct (iv_fails _ _ _ _ I Eb) as [j Hj]. destruct (Hnf j Hj). }
  assert (Ho : start_open s = true) by (apply (iv_starts _ _ _ _ I); auto; lia).
  cbn [step]. rewrite (Hall i Hi), Ho. eexists. split; [reflexivity|]. cbn [procs set_proc]. rewrite upd_same. auto.
Qed.
Print Assumptions C67_all_start.

Definition failed_conf (_ : nat) : config := Config 1 1 0 false.
Definition failed_setup : list event := [SetupFails 0; SetupUnit 1; SetupDone 1; StartBroken 1].
Definition failed_setup_end : system := Eval vm_compute in end_of 2 failed_conf 4 false failed_setup.

(** If setting up fails in one process, every other one waits at the stop barrier for ever: its units
    are never shut down, and whoever waits for the pipeline waits for ever. *)
Theorem C67_failed_setup_hangs_refuted :
  exists (n : nat) (conf : nat -> config) (workers : nat) (h : list event) (s : system),
  after n conf workers false h s /\ In (SetupFails 0) h /\ units_set_up 1 h = units (conf 1) /\ 0 < units (conf 1) /\
  forall h' s', after n conf workers false (h' ++ h) s' -> at_ (procs s' 1) = AtStop /\ shut s' = [].
Proof.
  assert (Ha : after 2 failed_conf 4 false (rev failed_setup) failed_setup_end) by (apply play_init; vm_compute; reflexivity).
  exists 2, failed_conf, 4, (rev failed_setup), failed_setup_end. split; [exact Ha|].
  split; [cbn; auto|]. split; [reflexivity|]. split; [cbn; lia|].
  intros h' s' Ha'. split.
  - eapply (stuck _ _ _ _ _ _ 0 1); [exact Ha|left; cbn; auto|reflexivity|exact Ha'].
  - pose proof (after_Inv _ _ _ _ _ _ Ha') as I. destruct (shut s') eqn:E; [reflexivity|].
    assert (Ho : stop_open s' = true) by (apply (iv_shut _ _ _ _ I); rewrite E; discriminate).
    destruct (iv_gone _ _ _ _ I 0) as (_ & _ & Hx); [left; apply in_or_app; right; cbn; auto|]. congruence.
Qed.
Print Assumptions C67_failed_setup_hangs_refuted.

Definition demo_conf (i : nat) : config :=
  match i with 0 => Config 2 1 1 true | _ => Config 1 2 0 false end.

Definition demo_run : list event :=
  [SetupUnit 0; SetupUnit 1; SetupUnit 0; SetupDone 1; SetupDone 0; ParticipantComes; PassStart 0; PassStart 1;
   MonitorStarts 0; MonitorStarts 1; TaskEnds 1 1; MainReturns 0; TaskTerminates 0 0; TaskCancelled 1 0; AllDone 1;
   AllDone 0; PassStop 1; ShutUnit 1; PassStop 0; ShutUnit 0; Finish 1; ShutUnit 0; Finish 0].

Definition demo_start_end : system := Eval vm_compute in end_of 2 demo_conf 2 true (firstn 8 demo_run).
Definition demo_end : system := Eval vm_compute in end_of 2 demo_conf 2 true demo_run.

Example C67_case :
  exists s, after 2 demo_conf 2 true (rev (firstn 8 demo_run)) s /\ active s 0 /\ active s 1 /\
            participant s = false /\ units_set_up 0 (rev (firstn 8 demo_run)) = 2.
Proof.
  exists demo_start_end. split; [apply play_init; vm_compute; reflexivity|]. split; [left; discriminate|].
  split; [left; discriminate|]. split; reflexivity.
Qed.

(* ---------- C68: ending ---------- *)

(** While units are shut down, or after, no coroutine and no main function runs in any process, provided
    no process was killed or interrupted and no main function failed. *)
Theorem C68_units_are_shut_down_after_all_tasks_partial :
  forall (n : nat) (conf : nat -> config) (workers : nat) (with_participant : bool) (h : list event) (s : system),
  after n conf workers with_participant h s -> Forall calm_event h ->
  (shut s <> [] \/ exists i, at_ (procs s i) = Shutdown) ->
  forall j, running (procs s j) = [] /\ in_main (procs s j) = false.
Proof.
  intros n conf workers wp h s Ha Hc Hsh j. pose proof (after_Inv _ _ _ _ _ _ Ha) as I.
  assert (Ho : stop_open s = true).
  { destruct Hsh as [Hx|[i Hx]]; [apply (iv_shut _ _ _ _ I Hx)|apply (iv_shutdown _ _ _ _ I i Hx)]. }
  destruct (le_lt_dec n j) as [Hl|Hl].
  - assert (He : early (procs s j)) by (left; apply (iv_out _ _ _ _ I j Hl)).
    destruct (iv_early _ _ _ _ I j He) as (H1 & _ & H3). auto.
  - apply (late_at_rest _ _ _ _ _ _ Ha Hc j). apply (iv_stop _ _ _ _ I Ho j Hl).
Qed.
Print Assumptions C68_units_are_shut_down_after_all_tasks_partial.

(** No unit is shut down twice, or unless it is a unit of one of the processes, and when a process has
    ended without an error all its units have been shut down. *)
Theorem C68_every_unit_is_shut_down_once :
  forall (n : nat) (conf : nat -> config) (workers : nat) (with_participant : bool) (h : list event) (s : system),
  after n conf workers with_participant h s ->
  NoDup (shut s) /\
  (forall i k, In (i, k) (shut s) -> i < n /\ k < units (conf i)) /\
  (forall i k, at_ (procs s i) = Ended true -> k < units (conf i) -> In (i, k) (shut s)).
Proof.
  intros n conf workers wp h s Ha. destruct (shut_list _ _ _ _ _ _ Ha) as (H1 & H2 & H3).
  split; [eapply shut_NoDup; eauto|]. split.
  - intros i k Hi. apply (proj1 (In_shut _ _ _ _ _ _ i k Ha)) in Hi. split.
    + destruct (le_lt_dec n i) as [Hl|Hl]; [|exact Hl]. rewrite (H2 i Hl) in Hi. cbn in Hi. lia.
    + destruct (H1 i) as [_ Hle]. lia.
  - intros i k He Hk. apply (proj2 (In_shut _ _ _ _ _ _ i k Ha)). rewrite (H3 i He). exact Hk.
Qed.
Print Assumptions C68_every_unit_is_shut_down_once.

(** A pipeline in which nothing fails comes to its end: from any point on, only so many things can
    happen, and when nothing that has to happen is left, the main functions have returned, and termination
    has been announced or no coroutine runs, then every process has ended without an error and all units
    have been shut down.  (Needs a worker of the executor for the monitor.) *)
Theorem C68_every_pipeline_ends_partial :
  forall (n : nat) (conf : nat -> config) (workers : nat) (with_participant : bool) (h : list event) (s : system),
  after n conf workers with_participant h s -> Forall good_event h -> (forall i, i < n -> threads (conf i) < workers) ->
  exists bound, forall h' s', after n conf workers with_participant (h' ++ h) s' -> Forall good_event h' -> ~ In SetTerm h' ->
    length h' <= bound /\
    ((forall e, unavoidable e -> step n conf workers s' e = None) ->
     (forall i, in_main (procs s' i) = false) ->
     (term_ev s' = true \/ forall i, running (procs s' i) = []) ->
     forall i, i < n -> at_ (procs s' i) = Ended true /\ forall k, k < units (conf i) -> In (i, k) (shut s')).
Proof.
  intros n conf workers wp h s Ha Hg Hw. exists (measure n conf s). intros h' s' Ha' Hg' Hn. split.
  - pose proof (measure_after n conf workers wp h s Ha h' s' Ha' (good_calm h' Hg') Hn). lia.
  - intros Hno Hm Ht i Hi.
    assert (He : at_ (procs s' i) = Ended true).
    { eapply progress; eauto. apply Forall_app. auto. }
    split; [exact He|]. intros k Hk. destruct (C68_every_unit_is_shut_down_once _ _ _ _ _ _ Ha') as (_ & _ & Hx). apply Hx; assumption.
Qed.
Print Assumptions C68_every_pipeline_ends_partial.

(** Once termination is announced in a running process that has a worker for the monitor, every
    coroutine of it is cancelled: each one that runs can end by that, and none is started again. *)
Theorem C68_termination_cancels_every_task :
  forall (n : nat) (conf : nat -> config) (workers : nat) (with_participant : bool) (h : list event) (s : system) (i k : nat),
  after n conf workers with_participant h s -> term_ev s = true -> at_ (procs s i) = Run ->
  in_threads (procs s i) < workers -> In k (running (procs s i)) ->
  exists evs s', Forall unavoidable evs /\ after n conf workers with_participant (evs ++ h) s' /\ ~ In k (running (procs s' i)) /\
  forall h'' s'', after n conf workers with_participant (h'' ++ evs ++ h) s'' -> ~ In k (running (procs s'' i)).
Proof.
  intros n conf workers wp h s i k Ha Ht Hr Hw Hk. pose proof (after_Inv _ _ _ _ _ _ Ha) as I.
  assert (Hex : exists evs s1, Forall unavoidable evs /\ after n conf workers wp (evs ++ h) s1 /\ at_ (procs s1 i) = Run /\
                 ~ In k (running (procs s1 i))).
  { assert (Hk' : existsb (Nat.eqb k) (running (procs s i)) = true)
      by (apply existsb_exists; exists k; split; [exact Hk|apply Nat.eqb_refl]).
    destruct (monitor (procs s i)) eqn:Em.
    - exists [TaskCancelled i k], (set_proc i (end_task k (procs s i)) s). split; [repeat constructor|]. split.
      + econstructor; [exact Ha|]. cbn [step]. rewrite Hk', Em, Ht. reflexivity.
      + cbn [procs set_proc]. rewrite upd_same. cbn. split; [exact Hr|apply remove_In].
    - set (p1 := Proc (at_ (procs s i)) (set_up (procs s i)) (running (procs s i)) (in_threads (procs s i)) true (in_main (procs s i)) (failed (procs s i))).
      set (s1 := set_proc i p1 s).
      assert (Ha1 : after n conf workers wp (MonitorStarts i :: h) s1).
      { econstructor; [exact Ha|]. cbn [step]. rewrite Hr, Em, (iv_run _ _ _ _ I i Hr). apply Nat.ltb_lt in Hw. rewrite Hw.
        cbn [negb andb]. unfold s1, p1. rewrite Hr. reflexivity. }
      assert (E1 : procs s1 i = p1) by apply upd_same.
      exists [TaskCancelled i k; MonitorStarts i], (set_proc i (end_task k p1) s1). split; [repeat constructor|]. split.
      + cbn [app]. econstructor; [exact Ha1|]. cbn [step]. rewrite E1. cbn [running monitor p1]. unfold p1 at 1. cbn [running].
        rewrite Hk'. cbn [monitor]. replace (term_ev s1) with true by (symmetry; exact Ht). reflexivity.
      + cbn [procs set_proc]. rewrite upd_same. cbn. split; [exact Hr|apply remove_In]. }
  destruct Hex as (evs & s1 & Hu & Ha1 & Hr1 & Hn1). exists evs, s1. split; [exact Hu|]. split; [exact Ha1|]. split; [exact Hn1|].
  assert (Hpast : forall h'' s'', after n conf workers wp (h'' ++ evs ++ h) s'' ->
            ~ early (procs s'' i) /\ ~ In k (running (procs s'' i))).
  { induction h'' as [|e h'' IH]; intros s'' Ha2.
    - cbn [app] in Ha2. rewrite (after_det _ _ _ _ _ _ Ha1 _ Ha2). split; [|exact Hn1].
      intros [Hx|Hx]; rewrite Hr1 in Hx; discriminate Hx.
    - cbn [app] in Ha2. inversion Ha2 as [|h0 s0 e0 s2 Ha0 Hs0]; subst. destruct (IH _ Ha0) as [IH1 IH2]. split.
      + intros Hx. destruct (pc_dec (at_ (procs s'' i)) (at_ (procs s0 i))) as [E|Hne].
        * apply IH1. unfold early in *. rewrite <- E. exact Hx.
        * pose proof (at_change _ _ _ _ _ _ _ Hs0 Hne) as Hy. unfold early in *.
          destruct (at_ (procs s0 i)) eqn:Ea; try tauto.
          -- apply step_shape in Hs0. destruct Hy as [->|[->|[->| ->]]]; cbn match in Hs0;
               repeat match goal with H : _ /\ _ |- _ => destruct H end; subst s''; cbn in Hx; rewrite upd_same in Hx; cbn in Hx;
               destruct Hx as [Hx|Hx]; discriminate Hx.
          -- apply step_shape in Hs0. destruct Hy as [-> _]; cbn match in Hs0;
               repeat match goal with H : _ /\ _ |- _ => destruct H end; subst s''; cbn in Hx; rewrite upd_same in Hx; cbn in Hx;
               destruct Hx as [Hx|Hx]; discriminate Hx.
          -- apply step_shape in Hs0. destruct Hy as [->| ->]; cbn match in Hs0;
               repeat match goal with H : _ /\ _ |- _ => destruct H end; subst s''; cbn in Hx; rewrite upd_same in Hx; cbn in Hx;
               destruct Hx as [Hx|Hx]; discriminate Hx.
      + apply step_shape in Hs0.
        assert (Hone : forall j p', (j = i -> ~ In k (running p')) -> ~ In k (running (upd j p' (procs s0) i))).
        { intros j p' Hp. destruct (Nat.eq_dec i j) as [->|Hj]; [rewrite upd_same; auto|rewrite upd_other by exact Hj; exact IH2]. }
        destruct e; cbn match in Hs0;
          repeat match goal with
                 | H : _ /\ _ |- _ => destruct H
                 | H : exists _, _ |- _ => destruct H
                 | H : _ \/ _ |- _ => destruct H
                 end; subst s''; cbn [procs set_proc set_term come_to_start come_to_stop]; try exact IH2;
          apply Hone; intros ->; cbn; try exact IH2; try tauto;
          try (intros Hx; apply in_remove in Hx; destruct Hx; contradiction).
        exfalso. apply IH1. right. assumption. }
  intros h'' s'' Ha2. apply (Hpast h'' s'' Ha2).
Qed.
Print Assumptions C68_termination_cancels_every_task.

Definition main_fails : list event :=
  [SetupUnit 0; SetupDone 0; PassStart 0; MonitorStarts 0; MainRaises 0; PassStop 0; ShutUnit 0].
Definition main_fails_end : system := Eval vm_compute in end_of 1 (fun _ => Config 1 1 0 true) 4 false main_fails.

(** When a main function fails, its process goes straight to the end: with one process its units are
    shut down while their coroutines run. *)
Theorem C68_main_fails_while_tasks_run_refuted :
  exists (conf : nat -> config) (h : list event) (s : system),
  after 1 conf 4 false h s /\ shut s = [(0, 0)] /\ running (procs s 0) = [0].
Proof.
  exists (fun _ => Config 1 1 0 true), (rev main_fails), main_fails_end. split.
  - apply play_init. vm_compute. reflexivity.
  - split; reflexivity.
Qed.
Print Assumptions C68_main_fails_while_tasks_run_refuted.

Definition main_failure : list event :=
  [SetupUnit 0; SetupDone 0; SetupUnit 1; SetupDone 1; PassStart 0; PassStart 1; MonitorStarts 0; MonitorStarts 1;
   MainReturns 1; MainRaises 0].
Definition main_failure_end : system := Eval vm_compute in end_of 2 (fun _ => Config 1 1 0 true) 4 false main_failure.

(** With more processes the failure is not announced: the others run on, and the process that failed
    waits for them. *)
Theorem C68_main_failure_is_not_announced_refuted :
  exists (conf : nat -> config) (h : list event) (s : system),
  after 2 conf 4 false h s /\ at_ (procs s 0) = AtStop /\ running (procs s 1) = [0] /\ term_ev s = false /\
  forall e, unavoidable e -> step 2 conf 4 s e = None.
Proof.
  exists (fun _ => Config 1 1 0 true), (rev main_failure), main_failure_end. split.
  - apply play_init. vm_compute. reflexivity.
  - split; [reflexivity|]. split; [reflexivity|]. split; [reflexivity|].
    intros e He. destruct e; try contradiction He; try reflexivity; try (destruct i as [|[|i]]; reflexivity).
    destruct i as [|[|i]]; destruct k as [|k]; reflexivity.
Qed.
Print Assumptions C68_main_failure_is_not_announced_refuted.

Definition one_interrupt : list event :=
  [SetupUnit 0; SetupDone 0; SetupUnit 1; SetupDone 1; PassStart 0; PassStart 1; MonitorStarts 0; MonitorStarts 1;
   Interrupt 0].
Definition one_interrupt_end : system := Eval vm_compute in end_of 2 (fun _ => Config 1 1 0 false) 4 false one_interrupt.

(** An interrupt that reaches one process only does not stop the pipeline, however often it comes. *)
Theorem C68_interrupt_of_one_process_refuted :
  exists (conf : nat -> config) (h : list event) (s : system),
  after 2 conf 4 false h s /\ In (Interrupt 0) h /\ running (procs s 1) = [0] /\ term_ev s = false /\
  step 2 conf 4 s (Interrupt 0) = None /\ forall e, unavoidable e -> step 2 conf 4 s e = None.
Proof.
  exists (fun _ => Config 1 1 0 false), (rev one_interrupt), one_interrupt_end. split.
  - apply play_init. vm_compute. reflexivity.
  - split; [cbn; auto|]. split; [reflexivity|]. split; [reflexivity|]. split; [reflexivity|].
    intros e He. destruct e; try contradiction He; try reflexivity; try (destruct i as [|[|i]]; reflexivity).
    destruct i as [|[|i]]; destruct k as [|k]; reflexivity.
Qed.
Print Assumptions C68_interrupt_of_one_process_refuted.

(** As many thread functions as the executor has workers keep termination from being noticed. *)
Theorem C68_threads_hide_termination_refuted :
  forall workers : nat, exists (conf : nat -> config) (h : list event) (s : system),
  after 1 conf workers false h s /\ Forall good_event h /\ term_ev s = true /\ running (procs s 0) = [0] /\
  forall e, unavoidable e -> step 1 conf workers s e = None.
Proof.
  intros w. exists (fun _ => Config 0 1 w false). eexists. eexists. split.
  - apply (play_init 1 (fun _ => Config 0 1 w false) w false [SetupDone 0; PassStart 0; SetTerm]). reflexivity.
  - split; [repeat constructor|]. split; [reflexivity|]. split; [reflexivity|].
    intros e He. destruct e; try contradiction He; try reflexivity; try (destruct i as [|i]; reflexivity).
    + destruct i as [|i]; [|reflexivity]. cbn -[Nat.ltb]. rewrite Nat.ltb_irrefl. reflexivity.
    + destruct i as [|i]; [|reflexivity]. destruct k; reflexivity.
Qed.
Print Assumptions C68_threads_hide_termination_refuted.

Definition two_units (_ : nat) : config := Config 2 0 0 false.
Definition shutdown_fails : list event :=
  [SetupUnit 0; SetupUnit 0; SetupDone 0; PassStart 0; AllDone 0; PassStop 0; ShutFails 0].
Definition shutdown_fails_end : system := Eval vm_compute in end_of 1 two_units 4 false shutdown_fails.

(** An exception while one unit is shut down keeps the other units of its process from being shut down. *)
Theorem C68_failing_shutdown_skips_the_rest_refuted :
  exists (conf : nat -> config) (h : list event) (s : system),
  after 1 conf 4 false h s /\ Forall calm_event h /\ units (conf 0) = 2 /\
  forall h' s', after 1 conf 4 false (h' ++ h) s' -> at_ (procs s' 0) = Ended false /\ forall k, ~ In (0, k) (shut s').
Proof.
  assert (Ha : after 1 two_units 4 false (rev shutdown_fails) shutdown_fails_end) by (apply play_init; vm_compute; reflexivity).
  exists two_units, (rev shutdown_fails), shutdown_fails_end. split; [exact Ha|].
  split; [repeat constructor|]. split; [reflexivity|]. intros h' s' Ha'.
  destruct (ended_for_good _ _ _ _ _ _ 0 false Ha eq_refl h' s' Ha') as [H1 H2]. split; [exact H1|].
  intros k Hk. apply (proj1 (In_shut _ _ _ _ _ _ 0 k Ha')) in Hk. rewrite H2 in Hk. cbn in Hk. lia.
Qed.
Print Assumptions C68_failing_shutdown_skips_the_rest_refuted.

Definition killed_conf (_ : nat) : config := Config 1 0 0 false.
Definition killed : list event :=
  [SetupUnit 0; SetupUnit 1; SetupDone 0; SetupDone 1; PassStart 0; PassStart 1; Crash 0; SetTerm; AllDone 1].
Definition killed_end : system := Eval vm_compute in end_of 2 killed_conf 4 false killed.

(** When a running process is killed, the others never get past the stop barrier, whatever is
    announced. *)
Theorem C68_killed_process_hangs_the_rest_refuted :
  exists (conf : nat -> config) (h : list event) (s : system),
  after 2 conf 4 false h s /\ In (Crash 0) h /\ In SetTerm h /\
  forall h' s', after 2 conf 4 false (h' ++ h) s' -> at_ (procs s' 1) = AtStop /\ shut s' = [].
Proof.
  assert (Ha : after 2 killed_conf 4 false (rev killed) killed_end) by (apply play_init; vm_compute; reflexivity).
  exists killed_conf, (rev killed), killed_end. split; [exact Ha|]. split; [cbn; auto|]. split; [cbn; auto|].
  intros h' s' Ha'. split.
  - eapply (stuck _ _ _ _ _ _ 0 1); [exact Ha|right; cbn; auto|reflexivity|exact Ha'].
  - pose proof (after_Inv _ _ _ _ _ _ Ha') as I. destruct (shut s') eqn:E; [reflexivity|].
    assert (Ho : stop_open s' = true) by (apply (iv_shut _ _ _ _ I); rewrite E; discriminate).
    destruct (iv_gone _ _ _ _ I 0) as (_ & _ & Hx); [right; apply in_or_app; right; cbn; auto|]. congruence.
Qed.
Print Assumptions C68_killed_process_hangs_the_rest_refuted.

(** Two processes with three units, three coroutines, a thread function and a main function. *)
Example C68_case :
  exists s, after 2 demo_conf 2 true (rev demo_run) s /\ Forall good_event (rev demo_run) /\
            at_ (procs s 0) = Ended true /\ at_ (procs s 1) = Ended true /\ shut s = [(0, 1); (0, 0); (1, 0)] /\
            (forall i, i < 2 -> threads (demo_conf i) < 2) /\ in_threads (procs s 0) = 1.
Proof.
  exists demo_end. split; [apply play_init; vm_compute; reflexivity|]. split; [repeat constructor|].
  split; [reflexivity|]. split; [reflexivity|]. split; [reflexivity|]. split; [|reflexivity].
  intros i Hi. destruct i as [|[|i]]; cbn; lia.
Qed.
