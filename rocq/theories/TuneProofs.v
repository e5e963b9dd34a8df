(** Proofs for C99. *)
From Coq Require Import String.
From Coq Require Import List Arith ZArith QArith Bool Permutation Sorted Lia Lqa.
From Verif Require Import Dict PerfModel PerfSpec PerfProofs TuneModel TuneSpec.
Import ListNotations.
Local Open Scope nat_scope.

(** ** Fields that a step does not touch *)

Ltac crush := repeat (match goal with
  | |- context [if ?b then _ else _] => destruct b
  | |- context [match ?x with Some _ => _ | None => _ end] => destruct x
  end; cbn); try reflexivity.

Section Fields.
Context {T : Type} (f : proc -> T).

Lemma f_leave_timer w b p : (forall q n, f (set_timers q n) = f q) -> f (leave_timer w b p) = f p.
Proof. intros H. unfold leave_timer. destruct (b && end_ok w); auto. Qed.
Lemma f_leave_caff w b p : (forall q n, f (set_helpers q n) = f q) -> f (leave_caffeinate w b p) = f p.
Proof. intros H. unfold leave_caffeinate. destruct (b && terminate_ok w); auto. Qed.
Lemma f_leave_aff w l p : (forall q n, f (set_cpus q n) = f q) -> f (leave_affinity w l p) = f p.
Proof. intros H. unfold leave_affinity. destruct l as [l|]; [destruct (cpus_ok w l)|]; auto. Qed.
Lemma f_leave_prio w z p : (forall q n, f (set_nice q n) = f q) -> f (leave_priority w z p) = f p.
Proof. intros H. unfold leave_priority, ask_nice. destruct z as [z|]; [|auto]. match goal with |- context [if ?b then _ else _] => destruct b end; auto. Qed.
Lemma f_enter_timer w p q t g : (forall q n, f (set_timers q n) = f q) -> enter_timer w p = (q, t, g) -> f q = f p.
Proof.
  intros H. unfold enter_timer. destruct (is_win (os w)); cbn; [|intros E; injection E as <- <- <-; reflexivity].
  destruct (winmm w); cbn; intros E; injection E as <- <- <-; [|reflexivity]. destruct (begin_ok w); auto.
Qed.
Lemma f_enter_caff w p q t : (forall q n, f (set_helpers q n) = f q) -> enter_caffeinate w p = (q, t) -> f q = f p.
Proof. intros H. unfold enter_caffeinate. destruct (is_mac (os w) && popen_ok w); intros E; injection E as <- <-; auto. Qed.
Lemma f_enter_aff w p q t g : (forall q n, f (set_cpus q n) = f q) -> enter_affinity w p = (q, t, g) -> f q = f p.
Proof.
  intros H. unfold enter_affinity. destruct (negb (has_psutil w) || is_mac (os w)); [intros E; injection E as <- <- <-; reflexivity|].
  destruct (negb (has_affinity w)); [intros E; injection E as <- <- <-; reflexivity|].
  destruct (negb (cpus_known w)); [intros E; injection E as <- <- <-; reflexivity|].
  destruct (cpus_ok w (choose true (cpus p))); intros E; injection E as <- <- <-; auto.
Qed.
Lemma f_try_nice w l : (forall q n, f (set_nice q n) = f q) -> forall p, f (try_nice w p l) = f p.
Proof.
  intros H. induction l as [|z l IH]; intros p; cbn; [reflexivity|]. unfold ask_nice.
  destruct ((nice p <=? z)%Z || (floor w <=? z)%Z); auto.
Qed.
Lemma f_enter_prio w p q t : (forall q n, f (set_nice q n) = f q) -> (forall q n, f (set_class q n) = f q) -> enter_priority w p = (q, t) -> f q = f p.
Proof.
  intros H1 H2. unfold enter_priority. destruct (negb (has_psutil w)); [intros E; injection E as <- <-; reflexivity|].
  destruct (is_win (os w)).
  - intros E; injection E as <- <-. destruct (negb (kernel32 w)); [reflexivity|]. destruct (class_ok w High); [auto|]. destruct (class_ok w AboveNormal); auto.
  - destruct (nice_known w); intros E; apply (f_equal fst) in E; cbn [fst] in E; subst q; [|reflexivity]. exact (f_try_nice w _ H1 p).
Qed.
End Fields.

(** ** The course of a block *)

Definition entered (w : world) (o : options) (p p1 p2 p3 p4 : proc) (on : option Z) (t : bool) (oc : option (list nat)) (cf : bool) : Prop :=
  (if adjust_priority o then enter_priority w (set_env_threads (single_thread_math o) p) else (set_env_threads (single_thread_math o) p, None)) = (p1, on) /\
  (if tweak_timer_windows o then enter_timer w p1 else (p1, false, true)) = (p2, t, true) /\
  (if prefer_isolated_cpus o then enter_affinity w p2 else (p2, None, true)) = (p3, oc, true) /\
  (if keep_mac_awake o then enter_caffeinate w p3 else (p3, false)) = (p4, cf).

Lemma course {X : Type} w o (block : proc -> proc * X) p r out : stable_perf w o block p = (r, out) ->
  (exists p1 on, (if adjust_priority o then enter_priority w (set_env_threads (single_thread_math o) p) else (set_env_threads (single_thread_math o) p, None)) = (p1, on) /\
    out = NotRun /\
    ((exists p2 t, (if tweak_timer_windows o then enter_timer w p1 else (p1, false, true)) = (p2, t, false) /\ r = leave_priority w on p2) \/
     (exists p2 t p3 oc, (if tweak_timer_windows o then enter_timer w p1 else (p1, false, true)) = (p2, t, true) /\
        (if prefer_isolated_cpus o then enter_affinity w p2 else (p2, None, true)) = (p3, oc, false) /\
        r = leave_priority w on (leave_timer w t (leave_affinity w oc p3))))) \/
  (exists p1 p2 p3 p4 on t oc cf, entered w o p p1 p2 p3 p4 on t oc cf /\ out = Ran (snd (block (set_gc p4 false))) /\
    r = leave_priority w on (leave_timer w t (leave_affinity w oc (leave_caffeinate w cf
          (if gc_on p4 then set_gc (fst (block (set_gc p4 false))) true else fst (block (set_gc p4 false))))))).
Proof.
  unfold stable_perf, entered. intros H.
  destruct (if adjust_priority o then _ else _) as [p1 on] eqn:E1.
  destruct (if tweak_timer_windows o then _ else _) as [[p2 t] g] eqn:E2. destruct g; cbn [negb] in H.
  2: { left. exists p1, on. injection H as <- <-. repeat split. left. exists p2, t. auto. }
  destruct (if prefer_isolated_cpus o then _ else _) as [[p3 oc] g] eqn:E3. destruct g; cbn [negb] in H.
  2: { left. exists p1, on. injection H as <- <-. repeat split. right. exists p2, t, p3, oc. auto. }
  destruct (if keep_mac_awake o then _ else _) as [p4 cf] eqn:E4. unfold gc_paused in H.
  destruct (block (set_gc p4 false)) as [q x] eqn:Eb. injection H as <- <-. right. exists p1, p2, p3, p4, on, t, oc, cf. rewrite Eb. cbn. auto 10.
Qed.

(** A field that only the first context manager and its end touch, and so on. *)
Ltac untouched :=
  repeat first
    [ rewrite f_leave_prio by reflexivity | rewrite f_leave_timer by reflexivity
    | rewrite f_leave_aff by reflexivity | rewrite f_leave_caff by reflexivity ].

Lemma opt_prio {T} (f : proc -> T) w (b : bool) p q t : (forall q n, f (set_nice q n) = f q) -> (forall q n, f (set_class q n) = f q) ->
  (if b then enter_priority w p else (p, None)) = (q, t) -> f q = f p.
Proof. intros H1 H2. destruct b; [now apply f_enter_prio|]. now intros [= <- <-]. Qed.
Lemma opt_timer {T} (f : proc -> T) w (b : bool) p q t g : (forall q n, f (set_timers q n) = f q) ->
  (if b then enter_timer w p else (p, false, true)) = (q, t, g) -> f q = f p.
Proof. intros H1. destruct b; [now apply f_enter_timer|]. now intros [= <- <- <-]. Qed.
Lemma opt_aff {T} (f : proc -> T) w (b : bool) p q t g : (forall q n, f (set_cpus q n) = f q) ->
  (if b then enter_affinity w p else (p, None, true)) = (q, t, g) -> f q = f p.
Proof. intros H1. destruct b; [now apply f_enter_aff|]. now intros [= <- <- <-]. Qed.
Lemma opt_caff {T} (f : proc -> T) w (b : bool) p q t : (forall q n, f (set_helpers q n) = f q) ->
  (if b then enter_caffeinate w p else (p, false)) = (q, t) -> f q = f p.
Proof. intros H1. destruct b; [now apply f_enter_caff|]. now intros [= <- <-]. Qed.

(** ** Niceness *)

Lemma tried w p : (may_return w p) -> nice (try_nice w p [(-10)%Z; (-5)%Z; 0%Z]) = nice p \/ (floor w <= nice p)%Z.
Proof.
  intros M. cbn. unfold ask_nice.
  destruct ((nice p <=? -10)%Z || (floor w <=? -10)%Z) eqn:E1.
  { apply orb_true_iff in E1 as [E|E]; apply Z.leb_le in E; destruct M; cbn; lia. }
  destruct ((nice p <=? -5)%Z || (floor w <=? -5)%Z) eqn:E2.
  { apply orb_true_iff in E2 as [E|E]; apply Z.leb_le in E; destruct M; cbn; lia. }
  destruct ((nice p <=? 0)%Z || (floor w <=? 0)%Z) eqn:E3; [|left; reflexivity].
  apply orb_true_iff in E3 as [E|E]; apply Z.leb_le in E; destruct M; cbn; lia.
Qed.

Lemma nice_back w o p p1 on q : may_return w p ->
  (if adjust_priority o then enter_priority w p else (p, None)) = (p1, on) -> nice q = nice p1 -> nice (leave_priority w on q) = nice p.
Proof.
  intros M. destruct (adjust_priority o); [|intros [= <- <-]; auto].
  unfold enter_priority. destruct (negb (has_psutil w)); [intros [= <- <-]; auto|]. destruct (is_win (os w)).
  { intros [= <- <-] N. cbn [leave_priority]. rewrite N. crush. }
  destruct (nice_known w); [|intros [= <- <-]; auto]. intros E N. pose proof (f_equal snd E) as E'. apply (f_equal fst) in E. cbn [fst snd] in E, E'. subst p1 on. unfold leave_priority, ask_nice.
  destruct ((nice q <=? nice p)%Z || (floor w <=? nice p)%Z) eqn:Q; [reflexivity|].
  apply orb_false_iff in Q as [Q1 Q2]. apply Z.leb_gt in Q1, Q2. destruct (tried w p M) as [K|K]; [congruence|lia].
Qed.

(** ** CPUs *)

Lemma two_nth (l : list nat) i : S i < length l -> l = firstn i l ++ nth i l 0 :: nth (S i) l 0 :: skipn (S (S i)) l.
Proof.
  revert i. induction l as [|x l IH]; intros i H; [cbn in H; lia|]. destruct i as [|i].
  - destruct l as [|y l]; [cbn in H; lia|]. reflexivity.
  - cbn [firstn nth skipn app]. f_equal. apply IH. cbn in H. lia.
Qed.

Lemma choose_settled l : settled l (choose true l).
Proof.
  unfold settled, choose. cbn [andb]. destruct (2 <? length l) eqn:E.
  - apply Nat.ltb_lt in E. right. split; [exact E|]. exists (nth (length l / 2 - 1) l 0), (nth (length l / 2) l 0). split; [|reflexivity].
    pose proof (Nat.div_mod (length l) 2 ltac:(lia)) as D. pose proof (Nat.mod_upper_bound (length l) 2 ltac:(lia)) as U.
    remember (length l / 2) as m eqn:Em. destruct m as [|m]; [lia|].
    exists (firstn m l), (skipn (S (S m)) l). replace (S m - 1) with m by lia. split; [apply two_nth; lia|].
    rewrite skipn_length, firstn_length, Nat.min_l by lia. lia.
  - apply Nat.ltb_ge in E. left. auto.
Qed.

Lemma cpus_back w o p q t g r : (cpus_ok w (cpus p) = true) -> (if prefer_isolated_cpus o then enter_affinity w p else (p, None, true)) = (q, t, g) ->
  cpus r = cpus q -> cpus (leave_affinity w t r) = cpus p.
Proof.
  intros Ok. destruct (prefer_isolated_cpus o); [|intros [= <- <- <-]; auto]. unfold enter_affinity.
  destruct (negb (has_psutil w) || is_mac (os w)); [intros [= <- <- <-]; auto|].
  destruct (negb (has_affinity w)); [intros [= <- <- <-]; auto|].
  destruct (negb (cpus_known w)); [intros [= <- <- <-]; auto|].
  destruct (cpus_ok w (choose true (cpus p))); intros [= <- <- <-] E; cbn [leave_affinity]; now rewrite Ok.
Qed.

(** ** Timers and helpers *)

Lemma timers_back w o p q t r : end_ok w = true -> begin_ok w = true ->
  (if tweak_timer_windows o then enter_timer w p else (p, false, true)) = (q, t, true) -> timers r = timers q -> timers (leave_timer w t r) = timers p.
Proof.
  intros K1 K2. destruct (tweak_timer_windows o); [|intros [= <- <-]; auto]. unfold enter_timer. destruct (is_win (os w)); cbn; [|intros [= <- <-]; auto].
  destruct (winmm w); cbn; [|discriminate]. rewrite K2. intros [= <- <-] E. unfold leave_timer. rewrite K1. cbn in *. rewrite E. lia.
Qed.

Lemma helpers_back w o p q t r : terminate_ok w = true ->
  (if keep_mac_awake o then enter_caffeinate w p else (p, false)) = (q, t) -> helpers r = helpers q -> helpers (leave_caffeinate w t r) = helpers p.
Proof.
  intros K. destruct (keep_mac_awake o); [|intros [= <- <-]; auto]. unfold enter_caffeinate. destruct (is_mac (os w) && popen_ok w).
  - intros [= <- <-] E. unfold leave_caffeinate. rewrite K. cbn in *. rewrite E. lia.
  - intros [= <- <-]. auto.
Qed.

(** ** What is restored *)

Section Restored.
Context {X : Type} (w : world) (o : options) (block : proc -> proc * X) (p r : proc) (out : outcome X).
Hypothesis Run : stable_perf w o block p = (r, out).
Hypothesis Tidy : tidy block.

Let p0 := set_env_threads (single_thread_math o) p.

Ltac start :=
  destruct (course w o block p r out Run) as [[p1 [on [E1 [_ [[p2 [t [E2 ->]]]|[p2 [t [p3 [oc [E2 [E3 ->]]]]]]]]]]]
    |[p1 [p2 [p3 [p4 [on [t [oc [cf [[E1 [E2 [E3 E4]]] [_ ->]]]]]]]]]]]; [| |rewrite !Tidy]; fold p0 in E1.

Lemma r_nice : may_return w p -> nice r = nice p.
Proof.
  intros M. assert (M0 : may_return w p0) by exact M. change (nice p) with (nice p0). start.
  - apply (nice_back w o p0 p1); [exact M0|exact E1|]. eapply opt_timer; [|exact E2]. reflexivity.
  - apply (nice_back w o p0 p1); [exact M0|exact E1|]. untouched.
    rewrite (opt_aff nice _ _ _ _ _ _ (fun _ _ => eq_refl) E3). eapply opt_timer; [|exact E2]. reflexivity.
  - apply (nice_back w o p0 p1); [exact M0|exact E1|]. untouched.
    transitivity (nice p4); [destruct (gc_on p4); reflexivity|].
    rewrite (opt_caff nice _ _ _ _ _ (fun _ _ => eq_refl) E4), (opt_aff nice _ _ _ _ _ _ (fun _ _ => eq_refl) E3). eapply opt_timer; [|exact E2]. reflexivity.
Qed.

Lemma r_cpus : cpus_ok w (cpus p) = true -> cpus r = cpus p.
Proof.
  intros M. change (cpus p) with (cpus p0) in *. start; untouched.
  - rewrite (opt_timer cpus _ _ _ _ _ _ (fun _ _ => eq_refl) E2). eapply opt_prio; [| |exact E1]; reflexivity.
  - assert (Q : cpus p2 = cpus p0).
    { rewrite (opt_timer cpus _ _ _ _ _ _ (fun _ _ => eq_refl) E2). eapply opt_prio; [| |exact E1]; reflexivity. }
    rewrite <- Q in *. eapply cpus_back; [exact M|exact E3|reflexivity].
  - assert (Q : cpus p2 = cpus p0).
    { rewrite (opt_timer cpus _ _ _ _ _ _ (fun _ _ => eq_refl) E2). eapply opt_prio; [| |exact E1]; reflexivity. }
    rewrite <- Q in *. eapply cpus_back; [exact M|exact E3|]. untouched. transitivity (cpus p4); [destruct (gc_on p4); reflexivity|].
    eapply opt_caff; [|exact E4]. reflexivity.
Qed.

Lemma r_gc : gc_on r = gc_on p.
Proof.
  change (gc_on p) with (gc_on p0). start; untouched.
  - rewrite (opt_timer gc_on _ _ _ _ _ _ (fun _ _ => eq_refl) E2). eapply opt_prio; [| |exact E1]; reflexivity.
  - rewrite (opt_aff gc_on _ _ _ _ _ _ (fun _ _ => eq_refl) E3), (opt_timer gc_on _ _ _ _ _ _ (fun _ _ => eq_refl) E2). eapply opt_prio; [| |exact E1]; reflexivity.
  - transitivity (gc_on p4); [destruct (gc_on p4) eqn:G; [reflexivity|reflexivity]|].
    rewrite (opt_caff gc_on _ _ _ _ _ (fun _ _ => eq_refl) E4), (opt_aff gc_on _ _ _ _ _ _ (fun _ _ => eq_refl) E3), (opt_timer gc_on _ _ _ _ _ _ (fun _ _ => eq_refl) E2).
    eapply opt_prio; [| |exact E1]; reflexivity.
Qed.

Lemma r_timers : begin_ok w = true -> end_ok w = true -> timers r = timers p.
Proof.
  intros B E. change (timers p) with (timers p0). start; untouched.
  - transitivity (timers p1); [|eapply opt_prio; [| |exact E1]; reflexivity]. destruct (tweak_timer_windows o); [|discriminate].
    unfold enter_timer in E2. destruct (is_win (os w)); cbn in E2; [|discriminate]. destruct (winmm w); cbn in E2; [discriminate|]. now injection E2 as <- _.
  - transitivity (timers p1); [|eapply opt_prio; [| |exact E1]; reflexivity]. eapply timers_back; [exact E|exact B|exact E2|]. untouched.
    eapply opt_aff; [|exact E3]. reflexivity.
  - transitivity (timers p1); [|eapply opt_prio; [| |exact E1]; reflexivity]. eapply timers_back; [exact E|exact B|exact E2|]. untouched.
    transitivity (timers p4); [destruct (gc_on p4); reflexivity|]. rewrite (opt_caff timers _ _ _ _ _ (fun _ _ => eq_refl) E4).
    eapply opt_aff; [|exact E3]. reflexivity.
Qed.

Lemma r_helpers : terminate_ok w = true -> helpers r = helpers p.
Proof.
  intros T. change (helpers p) with (helpers p0). start; untouched.
  - rewrite (opt_timer helpers _ _ _ _ _ _ (fun _ _ => eq_refl) E2). eapply opt_prio; [| |exact E1]; reflexivity.
  - rewrite (opt_aff helpers _ _ _ _ _ _ (fun _ _ => eq_refl) E3), (opt_timer helpers _ _ _ _ _ _ (fun _ _ => eq_refl) E2). eapply opt_prio; [| |exact E1]; reflexivity.
  - transitivity (helpers p3).
    + eapply helpers_back; [exact T|exact E4|]. destruct (gc_on p4); reflexivity.
    + rewrite (opt_aff helpers _ _ _ _ _ _ (fun _ _ => eq_refl) E3), (opt_timer helpers _ _ _ _ _ _ (fun _ _ => eq_refl) E2). eapply opt_prio; [| |exact E1]; reflexivity.
Qed.

Lemma r_vars : vars r = vars p0.
Proof.
  start; untouched.
  - rewrite (opt_timer vars _ _ _ _ _ _ (fun _ _ => eq_refl) E2). eapply opt_prio; [| |exact E1]; reflexivity.
  - rewrite (opt_aff vars _ _ _ _ _ _ (fun _ _ => eq_refl) E3), (opt_timer vars _ _ _ _ _ _ (fun _ _ => eq_refl) E2). eapply opt_prio; [| |exact E1]; reflexivity.
  - transitivity (vars p4); [destruct (gc_on p4); reflexivity|].
    rewrite (opt_caff vars _ _ _ _ _ (fun _ _ => eq_refl) E4), (opt_aff vars _ _ _ _ _ _ (fun _ _ => eq_refl) E3), (opt_timer vars _ _ _ _ _ _ (fun _ _ => eq_refl) E2).
    eapply opt_prio; [| |exact E1]; reflexivity.
Qed.

Lemma r_priority : os w <> Windows -> priority r = priority p.
Proof.
  intros Nw. change (priority p) with (priority p0).
  assert (Pp : forall q on, (if adjust_priority o then enter_priority w p0 else (p0, None)) = (q, on) -> priority q = priority p0).
  { intros q on. destruct (adjust_priority o); [|now intros [= <- <-]]. unfold enter_priority. destruct (negb (has_psutil w)); [now intros [= <- <-]|].
    destruct (os w); [| |congruence]; cbn [is_win]; (destruct (nice_known w); intros E; apply (f_equal fst) in E; cbn [fst] in E; subst q; [exact (f_try_nice priority w _ (fun _ _ => eq_refl) p0)|reflexivity]). }
  start; untouched.
  - rewrite (opt_timer priority _ _ _ _ _ _ (fun _ _ => eq_refl) E2). eapply Pp; exact E1.
  - rewrite (opt_aff priority _ _ _ _ _ _ (fun _ _ => eq_refl) E3), (opt_timer priority _ _ _ _ _ _ (fun _ _ => eq_refl) E2). eapply Pp; exact E1.
  - transitivity (priority p4); [destruct (gc_on p4); reflexivity|].
    rewrite (opt_caff priority _ _ _ _ _ (fun _ _ => eq_refl) E4), (opt_aff priority _ _ _ _ _ _ (fun _ _ => eq_refl) E3), (opt_timer priority _ _ _ _ _ _ (fun _ _ => eq_refl) E2).
    eapply Pp; exact E1.
Qed.
End Restored.

(** ** The environment *)

Lemma setdefault_keeps d k v k' x : get k' d = Some x -> get k' (setdefault d k v) = Some x.
Proof. intros H. unfold setdefault. destruct (get k d) eqn:E; [exact H|]. rewrite get_put_neq; [exact H|]. intros ->. congruence. Qed.
Lemma setdefault_other d k v k' : k' <> k -> get k' (setdefault d k v) = get k' d.
Proof. intros N. unfold setdefault. destruct (get k d); [reflexivity|]. apply get_put_neq. congruence. Qed.
Lemma setdefault_there d k v : exists x, get k (setdefault d k v) = Some x.
Proof. unfold setdefault. destruct (get k d) eqn:E; [eauto|]. rewrite get_put_eq. eauto. Qed.

Lemma env_keeps b p k x : get k (vars p) = Some x -> get k (vars (set_env_threads b p)) = Some x.
Proof. intros H. unfold set_env_threads. cbn [vars set_vars]. apply setdefault_keeps. destruct b; [|exact H]. cbn. repeat apply setdefault_keeps. exact H. Qed.
Lemma env_others b p k : ~ tuning_var k -> get k (vars (set_env_threads b p)) = get k (vars p).
Proof.
  intros N. unfold tuning_var in N. cbn in N. unfold set_env_threads. cbn [vars set_vars]. rewrite setdefault_other by (intros ->; tauto).
  destruct b; [|reflexivity]. cbn. rewrite !setdefault_other by (intros ->; tauto). reflexivity.
Qed.
Lemma env_all p k : tuning_var k -> get k (vars (set_env_threads true p)) <> None.
Proof.
  assert (St : forall d k0 v k1, get k1 d <> None -> get k1 (setdefault d k0 v) <> None).
  { intros d k0 v k1 H. destruct (get k1 d) as [x|] eqn:E; [|congruence]. erewrite setdefault_keeps by exact E. discriminate. }
  assert (Th : forall d k0 v, get k0 (setdefault d k0 v) <> None).
  { intros d k0 v. destruct (setdefault_there d k0 v) as [x ->]. discriminate. }
  intros T. unfold tuning_var in T. cbn in T. unfold set_env_threads. cbn [vars set_vars thread_vars fold_left].
  destruct T as [<-|[<-|[<-|[<-|[<-|[<-|[]]]]]]]; repeat first [apply Th|apply St].
Qed.

(** ** Inside *)

Lemma inside {X : Type} w o (block : proc -> proc * X) p r out : stable_perf w o block p = (r, out) -> unhindered w o p ->
  exists q, out = Ran (snd (block q)) /\ gc_on q = false /\
    (prefer_isolated_cpus o = true -> has_psutil w = true -> os w <> Mac -> has_affinity w = true -> settled (cpus p) (cpus q)) /\
    (single_thread_math o = true -> forall k, tuning_var k -> get k (vars q) <> None) /\
    (forall k x, get k (vars p) = Some x -> get k (vars q) = Some x) /\
    ((0 <= nice p)%Z -> (nice q <= nice p)%Z) /\
    (adjust_priority o = true -> has_psutil w = true -> os w <> Windows -> nice_known w = true -> (floor w <= -10)%Z -> nice q = (-10)%Z).
Proof.
  intros Run [Ut Ua]. set (p0 := set_env_threads (single_thread_math o) p).
  destruct (course w o block p r out Run) as [[p1 [on [E1 [_ [[p2 [t [E2 ->]]]|[p2 [t [p3 [oc [E2 [E3 ->]]]]]]]]]]]
    |[p1 [p2 [p3 [p4 [on [t [oc [cf [[E1 [E2 [E3 E4]]] [-> _]]]]]]]]]]]; fold p0 in E1.
  - exfalso. destruct (tweak_timer_windows o); [|discriminate]. unfold enter_timer in E2. destruct (os w); cbn in E2; try discriminate.
    rewrite Ut in E2 by reflexivity. discriminate.
  - exfalso. assert (Q : cpus p2 = cpus p).
    { rewrite (opt_timer cpus _ _ _ _ _ _ (fun _ _ => eq_refl) E2). change (cpus p) with (cpus p0). eapply opt_prio; [| |exact E1]; reflexivity. }
    destruct (prefer_isolated_cpus o); [|discriminate]. unfold enter_affinity in E3. destruct (has_psutil w); cbn in E3; [|discriminate].
    destruct (is_mac (os w)) eqn:Mc; [discriminate|]. destruct (has_affinity w); cbn in E3; [|discriminate].
    destruct Ua as [U1 U2]; auto; [intros K; rewrite K in Mc; discriminate|]. rewrite U1, (U2 (choose true (cpus p2))) in E3; [discriminate|].
    rewrite Q. apply choose_settled.
  - exists (set_gc p4 false). split; [reflexivity|]. split; [reflexivity|].
    assert (Q : cpus p2 = cpus p).
    { rewrite (opt_timer cpus _ _ _ _ _ _ (fun _ _ => eq_refl) E2). change (cpus p) with (cpus p0). eapply opt_prio; [| |exact E1]; reflexivity. }
    assert (Nc : nice p4 = nice p1).
    { rewrite (opt_caff nice _ _ _ _ _ (fun _ _ => eq_refl) E4), (opt_aff nice _ _ _ _ _ _ (fun _ _ => eq_refl) E3). eapply opt_timer; [|exact E2]. reflexivity. }
    assert (Vc : vars p4 = vars p0).
    { rewrite (opt_caff vars _ _ _ _ _ (fun _ _ => eq_refl) E4), (opt_aff vars _ _ _ _ _ _ (fun _ _ => eq_refl) E3), (opt_timer vars _ _ _ _ _ _ (fun _ _ => eq_refl) E2).
      eapply opt_prio; [| |exact E1]; reflexivity. }
    split; [|split; [|split; [|split]]].
    + intros P H Nm Ha. cbn [cpus set_gc]. rewrite (opt_caff cpus _ _ _ _ _ (fun _ _ => eq_refl) E4).
      destruct (Ua P H Nm Ha) as [U1 U2]. rewrite P in E3. unfold enter_affinity in E3. rewrite H, Ha, U1 in E3. cbn in E3.
      destruct (is_mac (os w)) eqn:Mc; [destruct (os w); cbn in Mc; congruence|]. rewrite (U2 (choose true (cpus p2))) in E3 by (rewrite Q; apply choose_settled).
      injection E3 as <- _. cbn. rewrite Q. apply choose_settled.
    + intros St k T. cbn [vars set_gc]. rewrite Vc. unfold p0. rewrite St. now apply env_all.
    + intros k x H. cbn [vars set_gc]. rewrite Vc. now apply env_keeps.
    + intros Nn. cbn [nice set_gc]. rewrite Nc. change (nice p) with (nice p0) in *. clear - Nn E1. clearbody p0. destruct (adjust_priority o); [|injection E1 as <- _; lia].
      unfold enter_priority in E1. destruct (negb (has_psutil w)); [injection E1 as <- _; lia|]. destruct (is_win (os w)).
      { injection E1 as <- _. crush; cbn; lia. }
      destruct (nice_known w); injection E1 as <- _; [|lia]. cbn. unfold ask_nice.
      repeat match goal with |- context [if ?b then _ else _] => destruct b eqn:? end; cbn; lia.
    + intros Ap H Nw Kn Fl. cbn [nice set_gc]. rewrite Nc. clear - E1 Ap H Nw Kn Fl. clearbody p0. rewrite Ap in E1. unfold enter_priority in E1. rewrite H in E1. cbn [negb] in E1.
      destruct (is_win (os w)) eqn:Wn; [destruct (os w); cbn in Wn; congruence|]. rewrite Kn in E1. injection E1 as <- _. cbn. unfold ask_nice.
      assert (L : (floor w <=? -10)%Z = true) by now apply Z.leb_le. rewrite L, orb_true_r. reflexivity.
Qed.

Lemma first_left_out l a b x r : settled l [a; b] -> l = x :: r -> NoDup l -> 4 <= length l -> x <> a /\ x <> b.
Proof.
  intros [[K _]|[_ [a' [b' [[l1 [l2 [E L]]] Q]]]]] El Nd H; [lia|]. injection Q as <- <-. rewrite E in *. rewrite app_length in H. cbn in H.
  destruct l1 as [|y l1]; [cbn in *; lia|]. cbn in El. injection El as -> _. cbn in Nd. inversion Nd as [|? ? N _]; subst.
  split; intros ->; apply N, in_app_iff; right; cbn; auto.
Qed.

(** ** The robust average *)

Lemma filter_seq_shift {T : Type} (g : nat -> bool) (l : list T) a :
  filter (fun iv => g (fst iv)) (combine (seq (S a) (length l)) l) =
  map (fun iv => (S (fst iv), snd iv)) (filter (fun iv => g (S (fst iv))) (combine (seq a (length l)) l)).
Proof.
  revert a. induction l as [|x l IH]; intros a; [reflexivity|]. cbn. rewrite IH. destruct (g (S a)); reflexivity.
Qed.

Lemma every_filter n b (l : list Q) : b < n -> forall a, 
  map snd (filter (fun iv => fst iv mod n =? b) (combine (seq a (length l)) l)) = every n ((b + n - a mod n) mod n) l.
Proof.
  intros B. induction l as [|x l IH]; intros a; [reflexivity|]. cbn [length seq combine filter fst every].
  pose proof (Nat.mod_upper_bound a n ltac:(lia)) as U.
  assert (Sa : S a mod n = if S (a mod n) =? n then 0 else S (a mod n)).
  { pose proof (Nat.div_mod a n ltac:(lia)) as D. destruct (S (a mod n) =? n) eqn:E.
    - apply Nat.eqb_eq in E. symmetry. apply (Nat.mod_unique (S a) n (S (a / n))); [lia|]. nia.
    - apply Nat.eqb_neq in E. symmetry. apply (Nat.mod_unique (S a) n (a / n)); [lia|]. nia. }
  assert (Big : forall c, n <= c -> c < n + n -> c mod n = c - n).
  { intros c H1 H2. symmetry. apply (Nat.mod_unique c n 1); lia. }
  destruct (a mod n =? b) eqn:E.
  - apply Nat.eqb_eq in E. replace (b + n - a mod n) with n by lia. rewrite Nat.mod_same by lia. cbn. f_equal. rewrite IH. f_equal. rewrite Sa.
    destruct (S (a mod n) =? n) eqn:E2.
    + apply Nat.eqb_eq in E2. rewrite Big by lia. lia.
    + apply Nat.eqb_neq in E2. rewrite Nat.mod_small by lia. lia.
  - apply Nat.eqb_neq in E.
    assert (V : exists v, (b + n - a mod n) mod n = S v /\ (b + n - S a mod n) mod n = v).
    { destruct (Nat.lt_ge_cases b (a mod n)) as [L|L].
      - exists (b + n - a mod n - 1). rewrite Nat.mod_small by lia. split; [lia|]. rewrite Sa. destruct (S (a mod n) =? n) eqn:E2.
        + apply Nat.eqb_eq in E2. rewrite Big by lia. lia.
        + apply Nat.eqb_neq in E2. rewrite Nat.mod_small by lia. lia.
      - exists (b - a mod n - 1). rewrite Big by lia. split; [lia|]. rewrite Sa. destruct (S (a mod n) =? n) eqn:E2.
        + apply Nat.eqb_eq in E2. lia.
        + rewrite Big by lia. lia. }
    destruct V as [v [-> Ev]]. rewrite IH, Ev. reflexivity.
Qed.

Lemma bucket_every n b l : b < n -> bucket n b l = every n b l.
Proof. intros B. unfold bucket. rewrite (every_filter n b l B 0), Nat.mod_0_l by lia. f_equal. replace (b + n - 0) with (b + 1 * n) by lia. rewrite Nat.mod_add by lia. apply Nat.mod_small. exact B. Qed.

Lemma every_some n l : forall b, b < length l -> every n b l <> [].
Proof. induction l as [|x l IH]; intros b H; cbn in *; [lia|]. destruct b; [discriminate|]. apply IH. lia. Qed.

Definition count (samples : list Q) (k : Z) : nat := Z.to_nat (Z.max 1 (Z.min k (Z.of_nat (length samples)))).

Lemma filter_all {T : Type} (f : T -> bool) l : Forall (fun x => f x = true) l -> filter f l = l.
Proof. induction 1 as [|x l E F IH]; [reflexivity|]. cbn. now rewrite E, IH. Qed.

Lemma averages samples k : samples <> [] -> exists means v, median_of_means samples k = Some v /\
  length means = count samples k /\ dealt samples means /\ In v means /\ halves (leP Qle_bool) v means.
Proof.
  intros N. set (n := count samples k).
  assert (Ln : 1 <= n <= length samples) by (unfold n, count; destruct samples; [congruence|]; cbn [length]; lia).
  set (means := map (fun b => mean (every n b samples)) (seq 0 n)).
  assert (Em : map mean (filter (fun b => negb (length b =? 0)) (map (fun b => bucket n b samples) (seq 0 n))) = means).
  { assert (Eb : map (fun b => bucket n b samples) (seq 0 n) = map (fun b => every n b samples) (seq 0 n)).
    { apply map_ext_in. intros b I. apply in_seq in I. apply bucket_every. lia. }
    rewrite Eb, filter_all; [unfold means; apply map_map|]. apply Forall_forall. intros l I. apply in_map_iff in I as [b [<- I]]. apply in_seq in I.
    pose proof (every_some n samples b ltac:(lia)) as K. destruct (every n b samples); [congruence|reflexivity]. }
  assert (Lm : length means = n) by (unfold means; now rewrite map_length, seq_length).
  exists means, (nth (length means / 2) (sort Qle_bool means) 0%Q).
  assert (Mid : length means / 2 < length means) by (apply Nat.div_lt; lia).
  split; [|split; [exact Lm|split; [|split]]].
  - unfold median_of_means. destruct samples as [|x samples]; [congruence|]. fold (count (x :: samples) k). fold n. rewrite Em.
    rewrite (sort_length Qle_bool). reflexivity.
  - intros b m E. rewrite Lm. assert (B : b < n) by (rewrite <- Lm; apply nth_error_Some; congruence).
    unfold means in E. rewrite nth_error_map in E. rewrite (nth_error_nth' _ 0) in E by (rewrite seq_length; lia). cbn in E. rewrite seq_nth in E by lia.
    cbn in E. injection E as <-. apply mean_is, every_some. lia.
  - apply (Permutation_in _ (Permutation_sym (sort_perm Qle_bool means))). apply nth_In. rewrite (sort_length Qle_bool). exact Mid.
  - assert (Tot : forall x y, Qle_bool x y = true \/ Qle_bool y x = true).
    { intros x y. destruct (Qle_bool x y) eqn:E; [auto|]. right. apply Qle_bool_iff. apply Qnot_lt_le. intros K. apply Qlt_le_weak, Qle_bool_iff in K. congruence. }
    assert (Tr : forall x y z, Qle_bool x y = true -> Qle_bool y z = true -> Qle_bool x z = true).
    { intros x y z. rewrite !Qle_bool_iff. apply Qle_trans. }
    pose proof (Nat.div_mod (length means) 2 ltac:(lia)) as D. pose proof (Nat.mod_upper_bound (length means) 2 ltac:(lia)) as U.
    apply (halves_sorted Qle_bool Tot Tr means _ (length means / 2) (length means / 2) 0%Q); try lia; apply Qle_bool_iff, Qle_refl.
Qed.

Lemma halves_count (f : Q -> bool) (means part rest : list Q) : Permutation means (part ++ rest) -> (forall x, In x part -> f x = true) ->
  length part <= length (filter f means).
Proof.
  intros P H. assert (E : Permutation (filter f means) (filter f (part ++ rest))).
  { clear H. induction P; cbn; [constructor| | |etransitivity; eassumption].
    - destruct (f x); [now apply perm_skip|assumption].
    - destruct (f x), (f y); try apply Permutation_refl. apply perm_swap. }
  rewrite (Permutation_length E), filter_app, (filter_all f part); [rewrite app_length; lia|]. now apply Forall_forall.
Qed.

Lemma good_one (f : Q -> bool) (good : nat -> bool) (means : list Q) : forall a,
  length (filter (fun b => negb (good b)) (seq a (length means))) < length (filter f means) ->
  exists g m, good (a + g) = true /\ nth_error means g = Some m /\ f m = true.
Proof.
  induction means as [|m means IH]; intros a H; cbn in H; [lia|].
  destruct (good a) eqn:G, (f m) eqn:F; cbn in H.
  - exists 0, m. rewrite Nat.add_0_r. auto.
  - destruct (IH (S a)) as [g [m' [K1 [K2 K3]]]]; [lia|]. exists (S g), m'. rewrite Nat.add_succ_r. auto.
  - destruct (IH (S a)) as [g [m' [K1 [K2 K3]]]]; [lia|]. exists (S g), m'. rewrite Nat.add_succ_r. auto.
  - destruct (IH (S a)) as [g [m' [K1 [K2 K3]]]]; [lia|]. exists (S g), m'. rewrite Nat.add_succ_r. auto.
Qed.

Lemma robust means v (good : nat -> bool) : halves (leP Qle_bool) v means -> 2 * length (filter (fun b => negb (good b)) (seq 0 (length means))) < length means ->
  (exists g m, good g = true /\ nth_error means g = Some m /\ m <= v)%Q /\ (exists g m, good g = true /\ nth_error means g = Some m /\ v <= m)%Q.
Proof.
  intros [below [above [B [Ab [[r1 P1] [[r2 P2] [L1 L2]]]]]]] G. split.
  - pose proof (halves_count (fun x => Qle_bool x v) means below r1 P1 B) as C.
    destruct (good_one (fun x => Qle_bool x v) good means 0) as [g [m [K1 [K2 K3]]]]; [lia|]. exists g, m. apply Qle_bool_iff in K3. auto.
  - pose proof (halves_count (fun x => Qle_bool v x) means above r2 P2 Ab) as C.
    destruct (good_one (fun x => Qle_bool v x) good means 0) as [g [m [K1 [K2 K3]]]]; [lia|]. exists g, m. apply Qle_bool_iff in K3. auto.
Qed.
