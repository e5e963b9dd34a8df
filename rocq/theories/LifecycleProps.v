(* C59: the life cycle of GraphRunner and SyncContext. *)

From Coq Require Import List Bool Arith Lia.
From Verif Require Import LifecycleModel.
Import ListNotations.

(** ** Specification *)

Definition effect_dec (a b : effect) : {a = b} + {a <> b}.
Proof. decide equality; apply Nat.eq_dec. Defined.

(** How often something has happened. *)
Definition times (e : effect) (log : list effect) : nat := count_occ effect_dec log e.

(** A process has ended: the runner has waited for it, or killed it. *)
Definition over (p : nat) (log : list effect) : Prop := In (Joined p) log \/ In (Terminated p) log.

(** The runner is running: start has returned after setting up, and stop has not returned since. *)
Fixpoint is_running (h : list (runner_call * result)) : bool :=
  match h with
  | [] => false
  | (RStart SetupOk (SpawnOk _) _, Returned) :: _ => true
  | (RStop _, Returned) :: _ => false
  | _ :: h => is_running h
  end.

(** Calls in which leaving the graph context does not fail, all processes can be started, and no
    interrupt arrives while the runner cleans up. *)
Definition smooth (c : runner_call) : Prop :=
  match c with
  | RStart _ sp ok => ok = true /\ (forall k, sp <> SpawnRaises k)
  | RStop ok => ok = true
  | RRun _ re ok => ok = true /\ ~ In InCleanup (run_last re)
  end.

(** ** The runner *)

Lemma times_app e a b : times e (a ++ b) = times e a + times e b.
Proof. apply count_occ_app. Qed.

Lemma times_cons e x l : times e (x :: l) = (if effect_dec x e then 1 else 0) + times e l.
Proof. unfold times. cbn [count_occ]. destruct (effect_dec x e); reflexivity. Qed.

(** Effects that neither open nor close anything. *)
Definition neutral (l : list effect) : Prop :=
  times LoopOpened l = 0 /\ times LoopClosed l = 0 /\ times GraphOpened l = 0 /\ times GraphClosed l = 0.

Lemma neutral_app a b : neutral a -> neutral b -> neutral (a ++ b).
Proof. unfold neutral. rewrite !times_app. lia. Qed.

Lemma neutral_map (f : nat -> effect) l : (forall p, f p = Joined p \/ f p = Terminated p \/ f p = Spawned p) -> neutral (map f l).
Proof.
  intros H. induction l as [|p l IH]; [unfold neutral; auto|]. unfold neutral in *. cbn [map]. rewrite !times_cons.
  destruct (H p) as [->|[->| ->]]; repeat (destruct (effect_dec _ _); [discriminate|]); lia.
Qed.

Lemma times_rev e l : times e (rev l) = times e l.
Proof. induction l as [|x l IH]; [reflexivity|]. cbn [rev]. rewrite times_app, IH, !times_cons. change (times e []) with 0. lia. Qed.

Lemma neutral_rev l : neutral l -> neutral (rev l).
Proof. unfold neutral. rewrite !times_rev. tauto. Qed.

Lemma neutral_term : neutral [TermSet].
Proof. unfold neutral. cbn. auto. Qed.

Lemma neutral_running : neutral [Running].
Proof. unfold neutral. cbn. auto. Qed.

Definition b2n (b : bool) : nat := if b then 1 else 0.

(** The numbers match. *)
Definition balanced (s : runner) : Prop :=
  times LoopOpened (r_log s) = times LoopClosed (r_log s) + b2n (r_loop s) /\
  times GraphOpened (r_log s) = times GraphClosed (r_log s) + b2n (r_graph s).

(** When the graph context was left, the processes started before were over. *)
Definition orderly (log : list effect) : Prop :=
  forall l1 l2, log = l1 ++ GraphClosed :: l2 -> forall p, In (Spawned p) l2 -> over p l2.

Definition accounted (s : runner) : Prop :=
  forall p, In (Spawned p) (r_log s) -> In p (r_spawned s) \/ over p (r_log s).

Lemma orderly_app l log : times GraphClosed l = 0 -> orderly log -> orderly (l ++ log).
Proof.
  induction l as [|x l IH]; intros N O; [exact O|]. rewrite times_cons in N. destruct (effect_dec x GraphClosed) as [->|D]; [lia|].
  intros l1 l2 E. cbn [app] in E. destruct l1 as [|y l1]; [injection E as -> _; contradiction|]. injection E as <- E.
  exact (IH ltac:(lia) O l1 l2 E).
Qed.

Lemma over_app p a b : over p b -> over p (a ++ b).
Proof. intros [H|H]; [left|right]; apply in_or_app; right; exact H. Qed.

(** The effects of waiting for processes or killing them. *)
Definition waits (l : list effect) : Prop := neutral l /\ forall p, ~ In (Spawned p) l.

Lemma waits_app a b : waits a -> waits b -> waits (a ++ b).
Proof. intros (A1 & A2) (B1 & B2). split; [apply neutral_app; assumption|]. intros p I. apply in_app_or in I. destruct I as [I|I]; [exact (A2 p I)|exact (B2 p I)]. Qed.

Lemma waits_nil : waits [].
Proof. split; [unfold neutral; auto|intros p []]. Qed.

Lemma waits_joined l : waits (map Joined l).
Proof. split; [apply neutral_map; auto|]. intros p I. apply in_map_iff in I. destruct I as (q & F & _). discriminate. Qed.

Lemma waits_terminated l : waits (map Terminated l).
Proof. split; [apply neutral_map; auto|]. intros p I. apply in_map_iff in I. destruct I as (q & F & _). discriminate. Qed.

Lemma waits_term : waits [TermSet].
Proof. split; [exact neutral_term|]. intros p [F|[]]. discriminate. Qed.

(** [s] is [s0] with more in its log. *)
Definition logged_more (l : list effect) (s0 s : runner) : Prop := s = log_it l s0.

(** Cleaning up after everything has been opened. *)
Lemma cleanup_open s : r_cleanup_done s = false -> r_loop s = true -> r_graph s = true ->
  cleanup true s = (Runner (r_started s) (r_stopped s) true (r_ctx s) false false [] (r_next s) (LoopClosed :: GraphClosed :: r_log s), Returned).
Proof. intros D L G. unfold cleanup. rewrite D, L, G. reflexivity. Qed.

Lemma final_loop_smooth : forall ls n f s, ~ In InCleanup ls -> r_cleanup_done s = false -> r_loop s = true -> r_graph s = true ->
  exists l n' f', waits l /\ (forall p, In p (r_spawned s) -> over p l) /\
    final_loop true ls n f s =
      (Runner (r_started s) (r_stopped s) true (r_ctx s) false false [] (r_next s) (LoopClosed :: GraphClosed :: l ++ r_log s), n', f', Returned).
Proof.
  induction ls as [|x ls IH]; intros n f s N D L G; cbn [final_loop].
  - rewrite cleanup_open by assumption. exists (map Joined (r_spawned s)), n, f. split; [apply waits_joined|]. split; [|reflexivity].
    intros p I. left. apply in_map. exact I.
  - destruct x; [|exfalso; apply N; left; reflexivity]. destruct (2 <=? S n) eqn:E.
    + rewrite cleanup_open by assumption. exists (map Terminated (r_spawned s)), (S n), true. split; [apply waits_terminated|]. split; [|reflexivity].
      intros p I. right. apply in_map. exact I.
    + destruct (IH (S n) f (set_term s)) as (l & n' & f' & W & O & E'); try assumption; [intros I; apply N; right; exact I|].
      exists (l ++ [TermSet]), n', f'. split; [apply waits_app; [exact W|apply waits_term]|]. split.
      * intros p I. destruct (O p I) as [H|H]; [left|right]; apply in_or_app; left; exact H.
      * rewrite E'. unfold set_term, log_it. cbn [r_started r_stopped r_ctx r_next r_log]. rewrite <- app_assoc. reflexivity.
Qed.

(** The invariant of smooth histories. *)
Definition Smooth (s : runner) : Prop :=
  balanced s /\ accounted s /\ orderly (r_log s) /\
  r_loop s = r_started s /\ r_graph s = r_started s /\
  (r_started s = true -> r_ctx s = true /\ r_cleanup_done s = false /\ r_stopped s = false) /\
  (r_started s = false -> r_spawned s = []).

(** Everything has been opened: [s0] has set up. *)
Definition Opened (s : runner) : Prop :=
  balanced s /\ accounted s /\ orderly (r_log s) /\ r_loop s = true /\ r_graph s = true /\ r_cleanup_done s = false /\ r_ctx s = true.

Lemma Opened_waits l s : waits l -> Opened s -> Opened (log_it l s).
Proof.
  intros ((W1 & W2 & W3 & W4) & Ws) ((B1 & B2) & A & O & P). unfold Opened, balanced, accounted in *. cbn [log_it r_log r_loop r_graph r_spawned].
  rewrite !times_app. split; [lia|]. split; [|split; [apply orderly_app; assumption|exact P]].
  intros p I. apply in_app_or in I. destruct I as [I|I]; [exfalso; exact (Ws p I)|]. destruct (A p I) as [H|H]; [left; exact H|right; apply over_app; exact H].
Qed.

Lemma Opened_running s st : Opened s -> Opened (set_flags st (r_stopped s) (log_it [Running] s)).
Proof.
  intros ((B1 & B2) & A & O & P). unfold Opened, balanced, accounted in *. cbn [log_it set_flags r_log r_loop r_graph r_spawned app].
  rewrite !times_cons. repeat (destruct (effect_dec _ _); [discriminate|]). split; [lia|]. split; [|split; [apply (orderly_app [Running]); [reflexivity|exact O]|exact P]].
  intros p [I|I]; [discriminate|]. destruct (A p I) as [H|H]; [left; exact H|right]. apply (over_app p [Running]). exact H.
Qed.

Lemma Opened_spawn n s : Opened s -> Opened (start_processes n s).
Proof.
  intros ((B1 & B2) & A & O & P). set (l := rev (map Spawned (seq (r_next s) n))).
  assert (N : neutral l) by (apply neutral_rev, neutral_map; auto). destruct N as (N1 & N2 & N3 & N4).
  unfold Opened, balanced, accounted in *. unfold start_processes. cbn [r_log r_loop r_graph r_spawned r_cleanup_done r_ctx]. fold l.
  rewrite !times_app. split; [lia|]. split; [|split; [apply orderly_app; assumption|exact P]].
  intros p I. apply in_app_or in I. destruct I as [I|I].
  - left. apply in_or_app. right. unfold l in I. apply in_rev, in_map_iff in I. destruct I as (q & E & I). injection E as ->. exact I.
  - destruct (A p I) as [H|H]; [left; apply in_or_app; left; exact H|right; apply over_app; exact H].
Qed.

Lemma Opened_closed l s st sp : waits l -> (forall p, In p (r_spawned s) -> over p (l ++ r_log s)) -> Opened s -> st = false ->
  Smooth (Runner st sp true (r_ctx s) false false [] (r_next s) (LoopClosed :: GraphClosed :: l ++ r_log s)).
Proof.
  intros W Ov P ->. pose proof (Opened_waits l s W P) as ((B1 & B2) & A & O & L & G & D & C). unfold log_it in *. cbn [r_log r_loop r_graph r_spawned] in *.
  rewrite L, G in *. cbn [b2n] in *. assert (Ov' : forall p, In (Spawned p) (l ++ r_log s) -> over p (l ++ r_log s)).
  { intros p I. destruct (A p I) as [H|H]; [exact (Ov p H)|exact H]. }
  split; [|split; [|split; [|split; [reflexivity|split; [reflexivity|split; [discriminate|reflexivity]]]]]].
  - unfold balanced. cbn [r_log r_loop r_graph b2n]. rewrite !times_cons.
    repeat (match goal with |- context [effect_dec ?a ?b] => destruct (effect_dec a b); try discriminate; try congruence end). lia.
  - intros p I. right. cbn [r_log] in *. destruct I as [I|[I|I]]; [discriminate..|]. apply (over_app p [LoopClosed; GraphClosed]). exact (Ov' p I).
  - cbn [r_log]. apply (orderly_app [LoopClosed]); [reflexivity|]. intros l1 l2 E. destruct l1 as [|x l1]; [injection E as <-; exact Ov'|].
    injection E as _ E. exact (O l1 l2 E).
Qed.

Lemma Smooth_reset s : Smooth s -> r_started s = false -> forall cd cx, Smooth (Runner (r_started s) (r_stopped s) cd cx (r_loop s) (r_graph s) [] (r_next s) (r_log s)).
Proof.
  intros (B & A & O & L & G & S1 & S2) F cd cx. split; [exact B|]. split; [intros p I; destruct (A p I) as [H|H]; [rewrite (S2 F) in H; destruct H|right; exact H]|].
  split; [exact O|]. split; [exact L|]. split; [exact G|]. split; [rewrite F; discriminate|reflexivity].
Qed.

Lemma Smooth_opened s : Smooth s -> r_started s = false ->
  Opened (Runner (r_started s) (r_stopped s) false true true true [] (r_next s) (GraphOpened :: LoopOpened :: r_log s)).
Proof.
  intros ((B1 & B2) & A & O & L & G & S1 & S2) F. rewrite L, G, F in *. cbn [b2n] in *. unfold Opened, balanced, accounted. cbn [r_log r_loop r_graph r_spawned r_cleanup_done r_ctx b2n].
  rewrite !times_cons. split; [repeat (match goal with |- context [effect_dec ?a ?b] => destruct (effect_dec a b); try discriminate; try congruence end); lia|].
  split; [|split; [apply (orderly_app [GraphOpened; LoopOpened]); [reflexivity|exact O]|auto]].
  intros p [I|[I|I]]; [discriminate..|]. right. apply (over_app p [GraphOpened; LoopOpened]). destruct (A p I) as [H|H]; [rewrite (S2 eq_refl) in H; destruct H|exact H].
Qed.

Lemma initialize_smooth e s s1 r : Smooth s -> r_started s = false -> initialize e true s = (s1, r) ->
  r_started s1 = false /\ r_stopped s1 = r_stopped s /\ (match r with Some true => Opened s1 /\ e = SetupOk | _ => Smooth s1 /\ e <> SetupOk end) /\ (e = SetupOk -> r = Some true).
Proof.
  intros S F E. unfold initialize in E. destruct e.
  - injection E as <- <-. split; [exact F|]. split; [reflexivity|]. split; [split; [apply Smooth_reset; assumption|discriminate]|discriminate].
  - injection E as <- <-. split; [exact F|]. split; [reflexivity|]. split; [split; [apply Smooth_reset; assumption|discriminate]|discriminate].
  - assert (Lg : r_graph s = false) by (destruct S as (_ & _ & _ & _ & G & _); congruence).
    assert (Ll : r_loop s = false) by (destruct S as (_ & _ & _ & G & _); congruence).
    unfold cleanup in E. cbn [r_cleanup_done r_graph r_loop] in E. rewrite Lg in E. cbn in E. injection E as <- <-. cbn [r_started r_stopped]. split; [exact F|]. split; [reflexivity|].
    split; [|discriminate]. split; [|discriminate].
    pose proof (Smooth_reset s S F true true) as ((B1 & B2) & A & O & L & G & S1 & S2). cbn [r_log r_loop r_graph r_started r_spawned] in *. rewrite Lg, Ll, F in *.
    split; [unfold balanced; cbn [r_log r_loop r_graph]; rewrite !times_cons; repeat (match goal with |- context [effect_dec ?a ?b] => destruct (effect_dec a b); try discriminate; try congruence end); cbn [b2n] in *; lia|].
    split; [intros p [I|[I|I]]; [discriminate..|]; destruct (A p I) as [H|H]; [destruct H|right; apply (over_app p [LoopClosed; LoopOpened]); exact H]|].
    split; [apply (orderly_app [LoopClosed; LoopOpened]); [reflexivity|exact O]|]. split; [reflexivity|]. split; [reflexivity|]. split; [discriminate|reflexivity].
  - pose proof (Smooth_opened s S F) as P. rewrite cleanup_open in E by reflexivity. injection E as <- <-. cbn [r_started r_stopped]. split; [exact F|]. split; [reflexivity|]. split; [|discriminate].
    split; [|discriminate]. rewrite F in *. apply (Opened_closed [] _ false (r_stopped s) waits_nil) in P; [exact P| |reflexivity]. intros p [].
  - injection E as <- <-. split; [exact F|]. split; [reflexivity|]. split; [|reflexivity]. split; [apply Smooth_opened; assumption|reflexivity].
Qed.

Lemma runner_invariant single h s : runner_after single h s -> (forall c r, In (c, r) h -> smooth c) ->
  Smooth s /\ r_started s = is_running h.
Proof.
  induction 1 as [|h s c s' r A IH D]; intros Sm.
  - split; [|reflexivity]. split; [unfold balanced; auto|]. split; [intros p []|]. split; [intros l1 l2 E; destruct l1; discriminate|]. split; [reflexivity|]. split; [reflexivity|]. split; [discriminate|reflexivity].
  - destruct (IH (fun c0 r0 I => Sm c0 r0 (or_intror I))) as (S & R). pose proof (Sm c r (or_introl eq_refl)) as K. clear IH Sm.
    destruct c as [e sp ok|ok|e re ok]; cbn [runner_do smooth] in *.
    + destruct K as (-> & K). unfold runner_start in D. destruct (r_started s) eqn:St.
      * injection D as <- <-. split; [exact S|]. cbn. rewrite St, R. destruct e, sp; reflexivity.
      * destruct (r_stopped s) eqn:Sp; [injection D as <- <-; split; [exact S|]; cbn; rewrite St, R; destruct e, sp; reflexivity|].
        destruct single; [injection D as <- <-; split; [exact S|]; cbn; rewrite St, R; destruct e, sp; reflexivity|].
        destruct (initialize e true s) as [s1 i] eqn:E. destruct (initialize_smooth e s s1 i S St E) as (F1 & F2 & F3 & F4).
        destruct i as [[|]|].
        -- destruct F3 as (P & ->). destruct sp as [k|n|n]; [exfalso; exact (K k eq_refl)| |].
           ++ pose proof (Opened_spawn n s1 P) as P1. pose proof (Opened_waits [TermSet] _ waits_term P1) as P2. fold (set_term (start_processes n s1)) in P2.
              pose proof (Opened_waits _ _ (waits_joined (r_spawned (set_term (start_processes n s1)))) P2) as P3. fold (join_spawned (set_term (start_processes n s1))) in P3.
              rewrite cleanup_open in D by apply P3. injection D as <- <-. unfold set_flags. cbn [r_cleanup_done r_ctx r_loop r_graph r_spawned r_next r_log r_started r_stopped].
              split; [|rewrite F1; cbn [is_running]; congruence]. apply (Opened_closed [] _ (r_started s1) true waits_nil) in P3; [exact P3| |].
              ** intros p I. left. unfold join_spawned, log_it. cbn [r_log app]. apply in_or_app. left. apply in_map. exact I.
              ** exact F1.
           ++ injection D as <- <-. split; [|reflexivity]. pose proof (Opened_running _ true (Opened_spawn n s1 P)) as (B & A1 & O & L & G & C & X).
              split; [exact B|]. split; [exact A1|]. split; [exact O|]. split; [exact L|]. split; [exact G|]. split; [|discriminate]. intros _. split; [exact X|]. split; [exact C|]. cbn. congruence.
        -- injection D as <- <-. destruct F3 as (F3 & F5). split; [exact F3|]. cbn [is_running]. rewrite F1, <- R. destruct e, sp; congruence.
        -- injection D as <- <-. destruct F3 as (F3 & F5). split; [exact F3|]. cbn [is_running]. rewrite F1, <- R. destruct e, sp; congruence.
    + subst ok. unfold runner_stop in D. destruct (r_started s) eqn:St; cbn [negb] in D; [|injection D as <- <-; split; [exact S|]; cbn; congruence].
      destruct S as (B & A1 & O & L & G & S1 & S2). destruct (S1 St) as (C & Cd & Ns). rewrite C in D. cbn [negb] in D. rewrite St in L, G.
      assert (P : Opened s) by (split; [exact B|]; split; [exact A1|]; split; [exact O|]; auto).
      pose proof (Opened_waits [TermSet] _ waits_term P) as P2. fold (set_term s) in P2.
      pose proof (Opened_waits _ _ (waits_joined (r_spawned (set_term s))) P2) as P3. fold (join_spawned (set_term s)) in P3.
      rewrite cleanup_open in D by apply P3. injection D as <- <-. split; [|reflexivity]. unfold set_flags. cbn [r_cleanup_done r_ctx r_loop r_graph r_spawned r_next r_log r_started r_stopped].
      apply (Opened_closed [] _ false true waits_nil) in P3; [exact P3| |reflexivity].
      intros p I. left. unfold join_spawned, log_it. cbn [r_log app]. apply in_or_app. left. apply in_map. exact I.
    + destruct K as (-> & K). unfold runner_run in D. destruct (r_started s) eqn:St; [injection D as <- <-; split; [exact S|]; cbn; congruence|].
      destruct (r_stopped s) eqn:Sp; [injection D as <- <-; split; [exact S|]; cbn; congruence|].
      destruct (initialize e true s) as [s1 i] eqn:E. destruct (initialize_smooth e s s1 i S St E) as (F1 & F2 & F3 & F4).
      destruct i as [[|]|]; [|injection D as <- <-; split; [exact (proj1 F3)|]; cbn; congruence..].
      destruct F3 as (P & _). unfold run_main in D. pose proof (Opened_spawn (run_spawned re) s1 P) as P1. set (s2 := start_processes (run_spawned re) s1) in *.
      assert (P2 : Opened (if run_all re then set_flags true (r_stopped s2) (log_it [Running] s2) else s2)) by (destruct (run_all re); [apply Opened_running|]; exact P1).
      set (s3 := if run_all re then _ else _) in *.
      assert (B : exists l n f, waits l /\ match run_body re with
            | BodyOk => (join_spawned s3, 0, false) | BodyRaises => (s3, 0, false)
            | BodyInterrupt => if run_join_interrupted re then (terminate_all (set_term s3), 2, true) else (join_spawned (set_term s3), 1, false) end = (log_it l s3, n, f)).
      { assert (E3 : s3 = log_it [] s3) by (destruct s3; reflexivity). destruct (run_body re).
        - do 3 eexists. split; [|reflexivity]. apply waits_joined.
        - destruct (run_join_interrupted re).
          + exists (map Terminated (r_spawned s3) ++ [TermSet]), 2, true. split; [apply waits_app; [apply waits_terminated|apply waits_term]|].
            unfold terminate_all, set_term, log_it. cbn [r_started r_stopped r_cleanup_done r_ctx r_loop r_graph r_spawned r_next r_log]. rewrite <- app_assoc. reflexivity.
          + exists (map Joined (r_spawned s3) ++ [TermSet]), 1, false. split; [apply waits_app; [apply waits_joined|apply waits_term]|].
            unfold join_spawned, set_term, log_it. cbn [r_started r_stopped r_cleanup_done r_ctx r_loop r_graph r_spawned r_next r_log]. rewrite <- app_assoc. reflexivity.
        - exists [], 0, false. split; [apply waits_nil|]. rewrite <- E3. reflexivity. }
      destruct B as (l & n & f & W & Eb). rewrite Eb in D. pose proof (Opened_waits l s3 W P2) as P4.
      destruct (final_loop_smooth (run_last re) n f (log_it l s3) K) as (l' & n' & f' & W' & Ov & Ef); [apply P4..|]. rewrite Ef in D.
      assert (Q : Smooth (Runner false true true (r_ctx (log_it l s3)) false false [] (r_next (log_it l s3)) (LoopClosed :: GraphClosed :: l' ++ r_log (log_it l s3)))).
      { apply Opened_closed; [exact W'| |exact P4|reflexivity]. intros p I. destruct (Ov p I) as [H|H]; [left|right]; apply in_or_app; left; exact H. }
      assert (Es : s' = Runner false true true (r_ctx (log_it l s3)) false false [] (r_next (log_it l s3)) (LoopClosed :: GraphClosed :: l' ++ r_log (log_it l s3))).
      { destruct (f' || (0 <? n') && run_unclean re); injection D as <- _; reflexivity. }
      rewrite Es. split; [exact Q|]. cbn [is_running r_started]. congruence.
Qed.

(** C59, partial.  While the runner is running it holds one event loop and one graph context; at
    every other time everything it has opened has been closed, and every process it has started is
    over; and the graph context is never left before the processes are over.  Missing: leaving the
    graph context fails, a process cannot be started, and interrupts while cleaning up, see below. *)
Theorem C59_runner_releases_everything_partial :
  forall single h s, runner_after single h s -> (forall c r, In (c, r) h -> smooth c) ->
    times LoopOpened (r_log s) = times LoopClosed (r_log s) + (if is_running h then 1 else 0) /\
    times GraphOpened (r_log s) = times GraphClosed (r_log s) + (if is_running h then 1 else 0) /\
    (is_running h = false -> forall p, In (Spawned p) (r_log s) -> over p (r_log s)) /\
    (forall later before, r_log s = later ++ GraphClosed :: before -> forall p, In (Spawned p) before -> over p before).
Proof.
  intros single h s A Sm. destruct (runner_invariant single h s A Sm) as (((B1 & B2) & Ac & O & L & G & S1 & S2) & R).
  rewrite L, R in B1. rewrite G, R in B2. split; [exact B1|]. split; [exact B2|]. split; [|exact O].
  intros F p I. destruct (Ac p I) as [H|H]; [|exact H]. rewrite S2 in H by congruence. destruct H.
Qed.
Print Assumptions C59_runner_releases_everything_partial.

(** C59.  A runner that runs refuses to be started, one that does not refuses to be stopped; a
    refused call changes nothing. *)
Theorem C59_runner_refuses :
  forall single h s, runner_after single h s -> (forall c r, In (c, r) h -> smooth c) ->
    if is_running h
    then (forall e sp ok, runner_do single s (RStart e sp ok) = (s, Raised)) /\
         (forall e re ok, runner_do single s (RRun e re ok) = (s, Raised)) /\
         (forall s' r, runner_do single s (RStop true) = (s', r) -> r = Returned)
    else forall ok, runner_do single s (RStop ok) = (s, Raised).
Proof.
  intros single h s A Sm. destruct (runner_invariant single h s A Sm) as ((_ & _ & _ & L & G & S1 & _) & R). rewrite <- R. destruct (r_started s) eqn:St.
  - split; [intros; cbn; unfold runner_start; rewrite St; reflexivity|]. split; [intros; cbn; unfold runner_run; rewrite St; reflexivity|].
    intros s' r D. cbn in D. unfold runner_stop in D. destruct (S1 eq_refl) as (C & Cd & _). rewrite St, C in D. cbn [negb] in D. rewrite cleanup_open in D by assumption.
    injection D as _ <-. reflexivity.
  - intros ok. cbn. unfold runner_stop. rewrite St. reflexivity.
Qed.
Print Assumptions C59_runner_refuses.

(** What the calls do to the flags and to the number of times the runner has run. *)
Lemma cleanup_flags ok s s' r : cleanup ok s = (s', r) ->
  r_started s' = r_started s /\ r_stopped s' = r_stopped s /\ times Running (r_log s') = times Running (r_log s).
Proof.
  unfold cleanup. destruct (r_cleanup_done s); [intros E; injection E as <- _; auto|].
  destruct (r_graph s && r_loop s && negb ok); intros E; injection E as <- _; [auto|]. cbn [r_started r_stopped r_log].
  split; [reflexivity|]. split; [reflexivity|]. rewrite !times_app. destruct (r_loop s), (r_graph s); reflexivity.
Qed.

Lemma log_it_flags l s : times Running l = 0 ->
  r_started (log_it l s) = r_started s /\ r_stopped (log_it l s) = r_stopped s /\ times Running (r_log (log_it l s)) = times Running (r_log s).
Proof. intros Z. cbn [log_it r_started r_stopped r_log]. rewrite times_app, Z. auto. Qed.

Lemma times_map_0 (f : nat -> effect) l : (forall p, f p <> Running) -> times Running (map f l) = 0.
Proof. intros H. induction l as [|p l IH]; [reflexivity|]. cbn [map]. rewrite times_cons. destruct (effect_dec (f p) Running) as [E|_]; [destruct (H p E)|exact IH]. Qed.

Lemma spawn_flags n s : r_started (start_processes n s) = r_started s /\ r_stopped (start_processes n s) = r_stopped s /\
  times Running (r_log (start_processes n s)) = times Running (r_log s).
Proof. unfold start_processes. cbn [r_started r_stopped r_log]. rewrite times_app, times_rev, times_map_0 by discriminate. auto. Qed.

Lemma initialize_flags e ok s s1 r : initialize e ok s = (s1, r) ->
  r_started s1 = r_started s /\ r_stopped s1 = r_stopped s /\ times Running (r_log s1) = times Running (r_log s).
Proof.
  unfold initialize. destruct e; intros E; try (injection E as <- _; auto; fail).
  - destruct (cleanup ok _) as [s' x] eqn:C in E. injection E as <- _. apply cleanup_flags in C. cbn [r_started r_stopped r_log] in C. rewrite times_cons in C. exact C.
  - destruct (cleanup ok _) as [s' x] eqn:C in E. injection E as <- _. apply cleanup_flags in C. cbn [r_started r_stopped r_log] in C. rewrite !times_cons in C. exact C.
Qed.

Lemma final_loop_flags ok : forall ls n f s s' n' f' r, final_loop ok ls n f s = (s', n', f', r) ->
  r_started s' = r_started s /\ r_stopped s' = r_stopped s /\ times Running (r_log s') = times Running (r_log s).
Proof.
  assert (J : forall s, r_started (join_spawned s) = r_started s /\ r_stopped (join_spawned s) = r_stopped s /\ times Running (r_log (join_spawned s)) = times Running (r_log s))
    by (intros s; apply log_it_flags, times_map_0; discriminate).
  assert (CJ : forall s s' r, cleanup ok (join_spawned s) = (s', r) -> r_started s' = r_started s /\ r_stopped s' = r_stopped s /\ times Running (r_log s') = times Running (r_log s)).
  { intros s s' r C. apply cleanup_flags in C. destruct (J s) as (J1 & J2 & J3). rewrite J1, J2, J3 in C. exact C. }
  induction ls as [|x ls IH]; intros n f s s' n' f' r E; cbn [final_loop] in E.
  - destruct (cleanup ok (join_spawned s)) as [s1 x] eqn:C. injection E as <- _ _ _. exact (CJ _ _ _ C).
  - assert (K : forall s1, r_started s1 = r_started s /\ r_stopped s1 = r_stopped s /\ times Running (r_log s1) = times Running (r_log s) ->
       (if 2 <=? S n then let (s2, r) := cleanup ok (terminate_all s1) in (s2, S n, true, r) else final_loop ok ls (S n) f (set_term s1)) = (s', n', f', r) ->
       r_started s' = r_started s /\ r_stopped s' = r_stopped s /\ times Running (r_log s') = times Running (r_log s)).
    { intros s1 (K1 & K2 & K3) E1. destruct (2 <=? S n).
      - destruct (cleanup ok (terminate_all s1)) as [s2 x2] eqn:C. injection E1 as <- _ _ _. apply cleanup_flags in C.
        destruct (log_it_flags (map Terminated (r_spawned s1)) s1) as (J1 & J2 & J3); [apply times_map_0; discriminate|]. unfold terminate_all in C. rewrite J1, J2, J3, K1, K2, K3 in C. exact C.
      - apply IH in E1. destruct (log_it_flags [TermSet] s1 eq_refl) as (J1 & J2 & J3). unfold set_term in E1. rewrite J1, J2, J3, K1, K2, K3 in E1. exact E1. }
    destruct x; cbv zeta in E.
    + exact (K s (conj eq_refl (conj eq_refl eq_refl)) E).
    + destruct (r_cleanup_done (join_spawned s)).
      * destruct (cleanup ok (join_spawned s)) as [s1 x] eqn:C. injection E as <- _ _ _. exact (CJ _ _ _ C).
      * destruct (r_graph (join_spawned s) && r_loop (join_spawned s)).
        -- eapply K; [|exact E]. exact (J s).
        -- destruct (cleanup ok (join_spawned s)) as [s1 x] eqn:C. injection E as <- _ _ _. exact (CJ _ _ _ C).
Qed.

(** The runner has been stopped, or run_blocking has come to its end. *)
Definition finished (cr : runner_call * result) : Prop :=
  match cr with
  | (RStop _, Returned) => True
  | (RRun SetupOk _ _, Returned) | (RRun _ _ _, Died) => True
  | _ => False
  end.

Lemma runner_once single h s : runner_after single h s ->
  (times Running (r_log s) = 0 \/ (times Running (r_log s) = 1 /\ (r_started s = true \/ r_stopped s = true))) /\
  ((exists cr, In cr h /\ finished cr) -> r_started s = false /\ r_stopped s = true) /\
  (r_started s = true -> times Running (r_log s) = 1).
Proof.
  induction 1 as [|h s c s' r A (T & F & U) D].
  - split; [left; reflexivity|]. split; [intros (cr & [] & _)|discriminate].
  - destruct (r_started s) eqn:St; [|destruct (r_stopped s) eqn:Sp].
    + (* running *)
      assert (NF : forall cr, In cr h -> ~ finished cr) by (intros cr I X; destruct (F (ex_intro _ cr (conj I X))); discriminate).
      specialize (U eq_refl). destruct c as [e sp ok|ok|e re ok]; cbn [runner_do] in D.
      * unfold runner_start in D. rewrite St in D. injection D as <- <-. rewrite St. split; [right; auto|]. split; [|auto]. intros (cr & [<-|I] & X); [destruct e; destruct X|destruct (NF cr I X)].
      * unfold runner_stop in D. rewrite St in D. cbn [negb] in D. destruct (r_ctx s); cbn [negb] in D.
        -- destruct (cleanup ok (join_spawned (set_term s))) as [s1 x] eqn:C. apply cleanup_flags in C.
           assert (J : r_started (join_spawned (set_term s)) = r_started s /\ r_stopped (join_spawned (set_term s)) = r_stopped s /\ times Running (r_log (join_spawned (set_term s))) = times Running (r_log s)).
           { destruct (log_it_flags (map Joined (r_spawned (set_term s))) (set_term s)) as (J1 & J2 & J3); [apply times_map_0; discriminate|].
             destruct (log_it_flags [TermSet] s eq_refl) as (I1 & I2 & I3). unfold join_spawned. rewrite J1, J2, J3. auto. }
           destruct J as (J1 & J2 & J3). rewrite J1, J2, J3 in C. destruct C as (C1 & C2 & C3). destruct x; injection D as <- <-.
           ++ cbn [set_flags r_log r_started r_stopped]. rewrite C3. split; [right; auto|]. split; [auto|discriminate].
           ++ rewrite C1, C3, St. split; [right; auto|]. split; [|auto]. intros (cr & [<-|I] & X); [destruct X|destruct (NF cr I X)].
           ++ rewrite C1, C3, St. split; [right; auto|]. split; [|auto]. intros (cr & [<-|I] & X); [destruct X|destruct (NF cr I X)].
        -- injection D as <- <-. rewrite St. split; [right; auto|]. split; [|auto]. intros (cr & [<-|I] & X); [destruct X|destruct (NF cr I X)].
      * unfold runner_run in D. rewrite St in D. injection D as <- <-. rewrite St. split; [right; auto|]. split; [|auto]. intros (cr & [<-|I] & X); [destruct e; destruct X|destruct (NF cr I X)].
    + (* stopped *)
      assert (s' = s /\ r = Raised) as (-> & ->).
      { destruct c as [e sp ok|ok|e re ok]; cbn [runner_do] in D; [unfold runner_start in D|unfold runner_stop in D|unfold runner_run in D]; rewrite St in D; cbn [negb] in D; rewrite ?Sp in D; injection D as <- <-; auto. }
      rewrite St, Sp. split; [exact T|]. split; [auto|discriminate].
    + (* new *)
      assert (NF : forall cr, In cr h -> ~ finished cr) by (intros cr I X; destruct (F (ex_intro _ cr (conj I X))); discriminate).
      assert (T0 : times Running (r_log s) = 0) by (destruct T as [T|(_ & [X|X])]; [exact T|discriminate..]). clear T F U.
      assert (Plain : forall s1, r_started s1 = false -> times Running (r_log s1) = 0 -> ~ finished (c, r) -> s' = s1 ->
        (times Running (r_log s') = 0 \/ times Running (r_log s') = 1 /\ (r_started s' = true \/ r_stopped s' = true)) /\
        ((exists cr, In cr ((c, r) :: h) /\ finished cr) -> r_started s' = false /\ r_stopped s' = true) /\ (r_started s' = true -> times Running (r_log s') = 1)).
      { intros s1 Z1 Z2 Z3 ->. rewrite Z1, Z2. split; [auto|]. split; [|discriminate]. intros (cr & [<-|I] & X); [destruct (Z3 X)|destruct (NF cr I X)]. }
      destruct c as [e sp ok|ok|e re ok]; cbn [runner_do] in D.
      * unfold runner_start in D. rewrite St, Sp in D. destruct single; [injection D as <- <-; apply (Plain s); auto|]. destruct (initialize e ok s) as [s1 i] eqn:E. apply initialize_flags in E.
        rewrite St, Sp, T0 in E. destruct E as (E1 & E2 & E3). destruct i as [[|]|]; [|injection D as <- <-; apply (Plain s1); auto..]. destruct (spawn_flags (match sp with SpawnRaises k => k | BarrierBroken k => k | SpawnOk k => k end) s1) as (P1 & P2 & P3).
        rewrite E1 in P1. rewrite E2 in P2. rewrite E3 in P3. destruct sp as [k|n|n].
        -- injection D as <- <-. eapply Plain; [exact P1|exact P3| |reflexivity]. auto.
        -- destruct (cleanup ok _) as [s2 x] eqn:C in D. apply cleanup_flags in C.
           destruct (log_it_flags (map Joined (r_spawned (set_term (start_processes n s1)))) (set_term (start_processes n s1))) as (J1 & J2 & J3); [apply times_map_0; discriminate|].
           destruct (log_it_flags [TermSet] (start_processes n s1) eq_refl) as (I1 & I2 & I3). unfold join_spawned in C. rewrite J1, J2, J3 in C. unfold set_term in C at 1 2 3. rewrite I1, I2, I3, P1, P2, P3 in C.
           destruct C as (C1 & C2 & C3). destruct x; injection D as <- <-; (eapply Plain; [| | |reflexivity]; auto).
        -- injection D as <- <-. cbn [set_flags log_it r_log r_started r_stopped app]. rewrite times_cons, P3. split; [right; auto|]. split; [|auto].
           intros (cr & [<-|I] & X); [destruct X|destruct (NF cr I X)].
      * unfold runner_stop in D. rewrite St in D. cbn in D. injection D as <- <-. apply (Plain s); auto.
      * unfold runner_run in D. rewrite St, Sp in D. destruct (initialize e ok s) as [s1 i] eqn:E. pose proof E as E0. apply initialize_flags in E. rewrite St, Sp, T0 in E. destruct E as (E1 & E2 & E3).
        destruct i as [[|]|].
        -- unfold run_main in D. destruct (spawn_flags (run_spawned re) s1) as (P1 & P2 & P3). rewrite E1 in P1. rewrite E2 in P2. rewrite E3 in P3.
           set (s2 := start_processes (run_spawned re) s1) in *.
           set (s3 := if run_all re then _ else _) in *.
           assert (B3 : times Running (r_log s3) <= 1 /\ r_stopped s3 = false /\ (times Running (r_log s3) = b2n (r_started s3))).
           { unfold s3. destruct (run_all re); cbn [set_flags log_it r_log r_started r_stopped app]; [rewrite times_cons, P3; auto|rewrite P1, P2, P3; auto]. }
           assert (B4 : exists s4 n f, match run_body re with
            | BodyOk => (join_spawned s3, 0, false) | BodyRaises => (s3, 0, false)
            | BodyInterrupt => if run_join_interrupted re then (terminate_all (set_term s3), 2, true) else (join_spawned (set_term s3), 1, false) end = (s4, n, f) /\
              r_started s4 = r_started s3 /\ r_stopped s4 = r_stopped s3 /\ times Running (r_log s4) = times Running (r_log s3)).
           { assert (Jn : forall t, r_started (join_spawned t) = r_started t /\ r_stopped (join_spawned t) = r_stopped t /\ times Running (r_log (join_spawned t)) = times Running (r_log t)) by (intros t; apply log_it_flags, times_map_0; discriminate).
             assert (Tn : forall t, r_started (terminate_all t) = r_started t /\ r_stopped (terminate_all t) = r_stopped t /\ times Running (r_log (terminate_all t)) = times Running (r_log t)) by (intros t; apply log_it_flags, times_map_0; discriminate).
             destruct (log_it_flags [TermSet] s3 eq_refl) as (I1 & I2 & I3). fold (set_term s3) in I1, I2, I3.
             destruct (run_body re); [|destruct (run_join_interrupted re)|]; do 3 eexists; (split; [reflexivity|]).
             - apply Jn.
             - destruct (Tn (set_term s3)) as (Q1 & Q2 & Q3). rewrite Q1, Q2, Q3. auto.
             - destruct (Jn (set_term s3)) as (Q1 & Q2 & Q3). rewrite Q1, Q2, Q3. auto.
             - auto. }
           destruct B4 as (s4 & n & f & E4 & G1 & G2 & G3). rewrite E4 in D. destruct (final_loop ok (run_last re) n f s4) as [[[s5 n'] f'] x] eqn:Ef. apply final_loop_flags in Ef.
           rewrite G1, G2, G3 in Ef. destruct Ef as (H1 & H2 & H3). destruct B3 as (B1 & B2 & B3).
           assert (Fin : forall q, s' = set_flags false true s5 -> r = q ->
              (times Running (r_log s') = 0 \/ times Running (r_log s') = 1 /\ (r_started s' = true \/ r_stopped s' = true)) /\
              ((exists cr, In cr ((RRun e re ok, r) :: h) /\ finished cr) -> r_started s' = false /\ r_stopped s' = true) /\ (r_started s' = true -> times Running (r_log s') = 1)).
           { intros q -> ->. cbn [set_flags r_log r_started r_stopped]. rewrite H3. split; [destruct (times Running (r_log s3)) as [|[|k]]; [auto|auto|lia]|]. split; [auto|discriminate]. }
           destruct x.
           ++ destruct (f' || (0 <? n') && run_unclean re); injection D as <- <-; eapply Fin; reflexivity.
           ++ injection D as <- <-. rewrite H1, H2, H3. destruct (r_started s3); cbn [b2n] in B3; rewrite B3.
              ** split; [auto|]. split; [|auto]. intros (cr & [<-|I] & X); [destruct e; destruct X|destruct (NF cr I X)].
              ** split; [auto|]. split; [|discriminate]. intros (cr & [<-|I] & X); [destruct e; destruct X|destruct (NF cr I X)].
           ++ injection D as <- <-. rewrite H1, H2, H3. destruct (r_started s3); cbn [b2n] in B3; rewrite B3.
              ** split; [auto|]. split; [|auto]. intros (cr & [<-|I] & X); [destruct e; destruct X|destruct (NF cr I X)].
              ** split; [auto|]. split; [|discriminate]. intros (cr & [<-|I] & X); [destruct e; destruct X|destruct (NF cr I X)].
        -- injection D as <- <-. apply (Plain s1); auto. intros X. unfold initialize in E0. destruct e; try discriminate; destruct X.
        -- injection D as <- <-. apply (Plain s1); auto. intros X. destruct e; destruct X.
Qed.

(** C59.  Whatever goes wrong, a runner runs at most once, and once it has been stopped or has been
    run to the end every further call is refused and changes nothing. *)
Theorem C59_runner_runs_at_most_once :
  forall single h s, runner_after single h s ->
    times Running (r_log s) <= 1 /\
    ((exists cr, In cr h /\ finished cr) -> forall c, runner_do single s c = (s, Raised)).
Proof.
  intros single h s A. destruct (runner_once single h s A) as (T & F & _). split; [lia|]. intros X. destruct (F X) as (St & Sp).
  intros [e sp ok|ok|e re ok]; cbn [runner_do]; [unfold runner_start|unfold runner_stop|unfold runner_run]; rewrite St; cbn [negb]; rewrite ?Sp; reflexivity.
Qed.
Print Assumptions C59_runner_runs_at_most_once.

Definition rb (s : runner) : Prop :=
  times LoopClosed (r_log s) + b2n (r_loop s) <= times LoopOpened (r_log s) /\
  times GraphClosed (r_log s) + b2n (r_graph s) <= times GraphOpened (r_log s).

Lemma rb_more l s : neutral l -> rb s -> rb (log_it l s).
Proof. intros (N1 & N2 & N3 & N4) (B1 & B2). unfold rb. cbn [log_it r_log r_loop r_graph]. rewrite !times_app. lia. Qed.

Lemma rb_cleanup ok s s' r : rb s -> cleanup ok s = (s', r) -> rb s'.
Proof.
  intros (B1 & B2) E. unfold cleanup in E. destruct (r_cleanup_done s); [injection E as <- _; split; assumption|].
  destruct (r_graph s && r_loop s && negb ok); injection E as <- _; [split; assumption|]. unfold rb. cbn [r_log r_loop r_graph]. rewrite !times_app.
  destruct (r_loop s), (r_graph s); cbn [andb b2n] in *; cbn; cbn in B1, B2; fold (times LoopClosed (r_log s)) in *; lia.
Qed.

Lemma rb_spawn n s : rb s -> rb (start_processes n s).
Proof.
  intros (B1 & B2). assert (N : neutral (rev (map Spawned (seq (r_next s) n)))) by (apply neutral_rev, neutral_map; auto). destruct N as (N1 & N2 & N3 & N4).
  unfold rb, start_processes. cbn [r_log r_loop r_graph]. rewrite !times_app. lia.
Qed.

Lemma rb_initialize e ok s s1 r : rb s -> initialize e ok s = (s1, r) -> rb s1.
Proof.
  intros (B1 & B2) E. unfold initialize in E. destruct e; try (injection E as <- _; split; assumption).
  - destruct (cleanup ok _) as [s' x] eqn:C in E. injection E as <- _. eapply rb_cleanup; [|exact C]. unfold rb. cbn [r_log r_loop r_graph]. rewrite !times_cons.
    repeat (match goal with |- context [effect_dec ?a ?b] => destruct (effect_dec a b); try discriminate; try congruence end). destruct (r_loop s); cbn [b2n] in *; lia.
  - destruct (cleanup ok _) as [s' x] eqn:C in E. injection E as <- _. eapply rb_cleanup; [|exact C]. unfold rb. cbn [r_log r_loop r_graph]. rewrite !times_cons.
    repeat (match goal with |- context [effect_dec ?a ?b] => destruct (effect_dec a b); try discriminate; try congruence end). destruct (r_loop s), (r_graph s); cbn [b2n] in *; lia.
  - injection E as <- _. unfold rb. cbn [r_log r_loop r_graph]. rewrite !times_cons.
    repeat (match goal with |- context [effect_dec ?a ?b] => destruct (effect_dec a b); try discriminate; try congruence end). destruct (r_loop s), (r_graph s); cbn [b2n] in *; lia.
Qed.

Lemma rb_final ok : forall ls n f s s' n' f' r, rb s -> final_loop ok ls n f s = (s', n', f', r) -> rb s'.
Proof.
  assert (J : forall s, rb s -> rb (join_spawned s)) by (intros s B; apply rb_more; [apply neutral_map; auto|exact B]).
  induction ls as [|x ls IH]; intros n f s s' n' f' r B E; cbn [final_loop] in E.
  - destruct (cleanup ok (join_spawned s)) as [s1 x] eqn:C. injection E as <- _ _ _. exact (rb_cleanup _ _ _ _ (J s B) C).
  - assert (K : forall s1, rb s1 ->
       (if 2 <=? S n then let (s2, r) := cleanup ok (terminate_all s1) in (s2, S n, true, r) else final_loop ok ls (S n) f (set_term s1)) = (s', n', f', r) -> rb s').
    { intros s1 B1 E1. destruct (2 <=? S n).
      - destruct (cleanup ok (terminate_all s1)) as [s2 x2] eqn:C. injection E1 as <- _ _ _. eapply rb_cleanup; [|exact C]. apply rb_more; [apply neutral_map; auto|exact B1].
      - eapply IH; [|exact E1]. apply rb_more; [apply neutral_term|exact B1]. }
    destruct x; cbv zeta in E; [exact (K s B E)|]. destruct (r_cleanup_done (join_spawned s)).
    + destruct (cleanup ok (join_spawned s)) as [s1 x] eqn:C. injection E as <- _ _ _. exact (rb_cleanup _ _ _ _ (J s B) C).
    + destruct (r_graph (join_spawned s) && r_loop (join_spawned s)).
      * eapply K; [|exact E]. exact (J s B).
      * destruct (cleanup ok (join_spawned s)) as [s1 x] eqn:C. injection E as <- _ _ _. exact (rb_cleanup _ _ _ _ (J s B) C).
Qed.

Lemma rb_do single s c s' r : rb s -> runner_do single s c = (s', r) -> rb s'.
Proof.
  assert (J : forall s, rb s -> rb (join_spawned s)) by (intros t B; apply rb_more; [apply neutral_map; auto|exact B]).
  assert (Tm : forall s, rb s -> rb (set_term s)) by (intros t B; apply rb_more; [apply neutral_term|exact B]).
  intros B D. destruct c as [e sp ok|ok|e re ok]; cbn [runner_do] in D.
  - unfold runner_start in D. destruct (r_started s); [injection D as <- _; exact B|]. destruct (r_stopped s); [injection D as <- _; exact B|]. destruct single; [injection D as <- _; exact B|].
    destruct (initialize e ok s) as [s1 i] eqn:E. pose proof (rb_initialize _ _ _ _ _ B E) as B1. destruct i as [[|]|]; [|injection D as <- _; exact B1..]. destruct sp as [k|n|n].
    + injection D as <- _. apply rb_spawn. exact B1.
    + destruct (cleanup ok _) as [s2 x] eqn:C in D. pose proof (rb_cleanup _ _ _ _ (J _ (Tm _ (rb_spawn n s1 B1))) C) as B2. destruct x; injection D as <- _; exact B2.
    + injection D as <- _. exact (rb_more [Running] _ neutral_running (rb_spawn n s1 B1)).
  - unfold runner_stop in D. destruct (negb (r_started s)); [injection D as <- _; exact B|]. destruct (negb (r_ctx s)); [injection D as <- _; exact B|].
    destruct (cleanup ok _) as [s2 x] eqn:C in D. pose proof (rb_cleanup _ _ _ _ (J _ (Tm _ B)) C) as B2. destruct x; injection D as <- _; exact B2.
  - unfold runner_run in D. destruct (r_started s); [injection D as <- _; exact B|]. destruct (r_stopped s); [injection D as <- _; exact B|].
    destruct (initialize e ok s) as [s1 i] eqn:E. pose proof (rb_initialize _ _ _ _ _ B E) as B1. destruct i as [[|]|]; [|injection D as <- _; exact B1..].
    unfold run_main in D. pose proof (rb_spawn (run_spawned re) s1 B1) as B2. set (s2 := start_processes (run_spawned re) s1) in *. set (s3 := if run_all re then _ else _) in *.
    assert (B3 : rb s3) by (unfold s3; destruct (run_all re); [exact (rb_more [Running] _ neutral_running B2)|exact B2]).
    assert (Tn : forall s, rb s -> rb (terminate_all s)) by (intros t Bt; apply rb_more; [apply neutral_map; auto|exact Bt]).
    assert (B4 : exists s4 n f, match run_body re with
            | BodyOk => (join_spawned s3, 0, false) | BodyRaises => (s3, 0, false)
            | BodyInterrupt => if run_join_interrupted re then (terminate_all (set_term s3), 2, true) else (join_spawned (set_term s3), 1, false) end = (s4, n, f) /\ rb s4).
    { destruct (run_body re); [|destruct (run_join_interrupted re)|]; do 3 eexists; (split; [reflexivity|]); auto. }
    destruct B4 as (s4 & n & f & E4 & B4). rewrite E4 in D. destruct (final_loop ok (run_last re) n f s4) as [[[s5 n'] f'] x] eqn:Ef. pose proof (rb_final _ _ _ _ _ _ _ _ _ B4 Ef) as B5.
    destruct x; [destruct (f' || (0 <? n') && run_unclean re)| |]; injection D as <- _; exact B5.
Qed.

(** C59.  Whatever goes wrong, nothing is closed more often than it was opened. *)
Theorem C59_runner_never_closes_twice :
  forall single h s, runner_after single h s ->
    times LoopClosed (r_log s) <= times LoopOpened (r_log s) /\ times GraphClosed (r_log s) <= times GraphOpened (r_log s).
Proof.
  intros single h s A. assert (B : rb s).
  { induction A as [|h s c s' r A IH D]; [split; cbn; lia|]. exact (rb_do _ _ _ _ _ IH D). }
  destruct B. lia.
Qed.
Print Assumptions C59_runner_never_closes_twice.

(** ** Cases *)

Fixpoint runner_run_calls (cs : list runner_call) : list (runner_call * result) * runner :=
  match cs with
  | [] => ([], new_runner)
  | c :: cs => let (h, s) := runner_run_calls cs in let (s', r) := runner_do false s c in ((c, r) :: h, s')
  end.

Lemma runner_calls_after cs : runner_after false (fst (runner_run_calls cs)) (snd (runner_run_calls cs)).
Proof.
  induction cs as [|c cs IH]; [constructor|]. cbn [runner_run_calls]. destruct (runner_run_calls cs) as [h s]. destruct (runner_do false s c) as [s' r] eqn:D.
  eapply runner_after_call; [exact IH|exact D].
Qed.

(** A failed attempt, a run with two processes, and calls that are refused. *)
Example C59_case :
  let cs := [RStart SetupOk (SpawnOk 1) true; RStop true; RStop true; RStart SetupOk (SpawnOk 1) true; RStart SetupOk (SpawnOk 2) true;
             RStart ConnectRaises (SpawnOk 2) true; RStart GraphRaises (SpawnOk 2) true; RStop true] in
  runner_after false (fst (runner_run_calls cs)) (snd (runner_run_calls cs)) /\
  (forall c r, In (c, r) (fst (runner_run_calls cs)) -> smooth c) /\
  map snd (fst (runner_run_calls cs)) = [Raised; Raised; Returned; Raised; Returned; Raised; Raised; Raised] /\
  r_log (snd (runner_run_calls cs)) =
    [LoopClosed; GraphClosed; Joined 0; Joined 1; TermSet; Running; Spawned 1; Spawned 0; GraphOpened; LoopOpened;
     LoopClosed; GraphClosed; GraphOpened; LoopOpened; LoopClosed; LoopOpened].
Proof.
  intros cs. split; [apply runner_calls_after|]. split; [|split; vm_compute; reflexivity].
  intros c r I. apply (in_map fst) in I. cbn [fst] in I.
  assert (E : map fst (fst (runner_run_calls cs)) = cs) by (vm_compute; reflexivity). rewrite E in I. clear E.
  assert (F : Forall smooth cs) by (repeat constructor; try discriminate). rewrite Forall_forall in F. exact (F c I).
Qed.

(** run_blocking, interrupted twice. *)
Example C59_case_interrupted :
  let cs := [RRun SetupOk (RunEnv 2 true BodyInterrupt true [] false) true] in
  runner_after false (fst (runner_run_calls cs)) (snd (runner_run_calls cs)) /\
  (forall c r, In (c, r) (fst (runner_run_calls cs)) -> smooth c) /\
  map snd (fst (runner_run_calls cs)) = [Died] /\
  r_log (snd (runner_run_calls cs)) =
    [LoopClosed; GraphClosed; Joined 0; Joined 1; Terminated 0; Terminated 1; TermSet; Running; Spawned 1; Spawned 0; GraphOpened; LoopOpened].
Proof.
  intros cs. split; [apply runner_calls_after|]. split; [|split; reflexivity].
  intros c r [I|[]]. injection I as <- <-. cbn. split; [reflexivity|intros []].
Qed.

(** C59 finding: an interrupt while run_blocking leaves the graph context: _cleanup has already noted
    that it is done, so the second attempt does nothing, and the event loop and its thread go on. *)
Theorem C59_interrupted_cleanup_leaks_refuted :
  exists h s, runner_after false h s /\ map snd h = [Returned] /\
    times LoopOpened (r_log s) = 1 /\ times LoopClosed (r_log s) = 0 /\
    forall c, runner_do false s c = (s, Raised).
Proof.
  exists (fst (runner_run_calls [RRun SetupOk (RunEnv 1 true BodyOk false [InCleanup] false) true])), (snd (runner_run_calls [RRun SetupOk (RunEnv 1 true BodyOk false [InCleanup] false) true])).
  split; [apply runner_calls_after|]. split; [reflexivity|]. split; [reflexivity|]. split; [reflexivity|].
  apply (proj2 (C59_runner_runs_at_most_once false _ _ (runner_calls_after [RRun SetupOk (RunEnv 1 true BodyOk false [InCleanup] false) true]))).
  eexists. split; [left; vm_compute; reflexivity|exact I].
Qed.
Print Assumptions C59_interrupted_cleanup_leaks_refuted.

(** C59 finding: if a process cannot be started, start raises and cleans nothing up; the processes
    started before are left behind, and stop is refused. *)
Theorem C59_failed_process_start_leaks_refuted :
  exists h s, runner_after false h s /\ map snd h = [Raised] /\
    times LoopOpened (r_log s) = 1 /\ times LoopClosed (r_log s) = 0 /\ In (Spawned 0) (r_log s) /\ ~ over 0 (r_log s) /\
    forall ok, runner_do false s (RStop ok) = (s, Raised).
Proof.
  exists (fst (runner_run_calls [RStart SetupOk (SpawnRaises 1) true])), (snd (runner_run_calls [RStart SetupOk (SpawnRaises 1) true])).
  split; [apply runner_calls_after|]. split; [reflexivity|]. split; [reflexivity|]. split; [reflexivity|]. split; [left; reflexivity|].
  split; [intros [[F|[F|[F|[]]]]|[F|[F|[F|[]]]]]; discriminate|]. reflexivity.
Qed.
Print Assumptions C59_failed_process_start_leaks_refuted.

(** C59 finding: a graph without units: start returns, but the runner does not run. *)
Theorem C59_start_without_units_refuted :
  exists h s, runner_after false h s /\ map snd h = [Returned] /\ (exists ok, map fst h = [RStart SetupEmpty (SpawnOk 0) ok]) /\ times Running (r_log s) = 0 /\
    forall ok, runner_do false s (RStop ok) = (s, Raised).
Proof.
  exists (fst (runner_run_calls [RStart SetupEmpty (SpawnOk 0) true])), (snd (runner_run_calls [RStart SetupEmpty (SpawnOk 0) true])).
  split; [apply runner_calls_after|]. split; [reflexivity|]. split; [exists true; reflexivity|]. split; reflexivity.
Qed.
Print Assumptions C59_start_without_units_refuted.
