(** C99: a steadied benchmark leaves the process as it was. *)
From Coq Require Import String.
From Coq Require Import List Arith ZArith QArith Bool Permutation Lia.
From Verif Require Import Dict PerfModel PerfSpec PerfProofs TuneModel TuneSpec TuneProofs.
Import ListNotations.
Local Open Scope nat_scope.

(** However the block ends, and also if it is not entered at all, the settings are what they were, where the system lets them. *)
Theorem C99_restored {X : Type} w o (block : proc -> proc * X) p r out : stable_perf w o block p = (r, out) -> tidy block ->
  (may_return w p -> nice r = nice p) /\
  (cpus_ok w (cpus p) = true -> cpus r = cpus p) /\
  gc_on r = gc_on p /\
  (begin_ok w = true -> end_ok w = true -> timers r = timers p) /\
  (terminate_ok w = true -> helpers r = helpers p) /\
  (os w <> Windows -> priority r = priority p) /\
  (forall k x, get k (vars p) = Some x -> get k (vars r) = Some x) /\
  (forall k, ~ tuning_var k -> get k (vars r) = get k (vars p)).
Proof.
  intros Run Ti. split; [now apply (r_nice w o block p r out)|]. split; [now apply (r_cpus w o block p r out)|].
  split; [now apply (r_gc w o block p r out)|]. split; [now apply (r_timers w o block p r out)|].
  split; [now apply (r_helpers w o block p r out)|]. split; [now apply (r_priority w o block p r out)|].
  rewrite (r_vars w o block p r out Run Ti). split; [apply env_keeps|apply env_others].
Qed.
Print Assumptions C99_restored.

(** The block is run once, with garbage collection off, on at most two CPUs, with the variables set, and at no lower priority
    than an ordinary process had before; what it returns or raises is passed on. *)
Theorem C99_block_runs {X : Type} w o (block : proc -> proc * X) p r out : stable_perf w o block p = (r, out) -> unhindered w o p ->
  exists q, out = Ran (snd (block q)) /\ gc_on q = false /\
    (prefer_isolated_cpus o = true -> has_psutil w = true -> os w <> Mac -> has_affinity w = true -> settled (cpus p) (cpus q)) /\
    (single_thread_math o = true -> forall k, tuning_var k -> get k (vars q) <> None) /\
    (forall k x, get k (vars p) = Some x -> get k (vars q) = Some x) /\
    ((0 <= nice p)%Z -> (nice q <= nice p)%Z) /\
    (adjust_priority o = true -> has_psutil w = true -> os w <> Windows -> nice_known w = true -> (floor w <= -10)%Z -> nice q = (-10)%Z).
Proof. apply inside. Qed.
Print Assumptions C99_block_runs.

(** With four CPUs or more the first is not among the two. *)
Theorem C99_first_cpu_avoided l a b x r : settled l [a; b] -> l = x :: r -> NoDup l -> 4 <= length l -> x <> a /\ x <> b.
Proof. apply first_left_out. Qed.
Print Assumptions C99_first_cpu_avoided.

(** The robust average is one of the averages of the values dealt out in turn, in the middle of them. *)
Theorem C99_average samples k : samples <> [] -> exists means v, median_of_means samples k = Some v /\
  Z.of_nat (length means) = Z.max 1 (Z.min k (Z.of_nat (length samples))) /\ dealt samples means /\ In v means /\ halves Qle v means.
Proof.
  intros N. destruct (averages samples k N) as [means [v [E [L [D [I H]]]]]]. exists means, v. split; [exact E|]. split; [rewrite L; unfold count; lia|].
  split; [exact D|]. split; [exact I|]. destruct H as [below [above [B [Ab R]]]]. exists below, above.
  split; [intros x K; now apply Qle_bool_iff, B|]. split; [intros x K; now apply Qle_bool_iff, Ab|]. exact R.
Qed.
Print Assumptions C99_average.

(** Robust: if outliers are in fewer than half of the hands, it lies between averages without any. *)
Theorem C99_robust means v (good : nat -> bool) : halves Qle v means ->
  2 * length (filter (fun b => negb (good b)) (seq 0 (length means))) < length means ->
  (exists g m, good g = true /\ nth_error means g = Some m /\ m <= v)%Q /\ (exists g m, good g = true /\ nth_error means g = Some m /\ v <= m)%Q.
Proof.
  intros [below [above [B [Ab R]]]]. apply robust. exists below, above. split; [intros x K; now apply Qle_bool_iff, B|].
  split; [intros x K; now apply Qle_bool_iff, Ab|exact R].
Qed.
Print Assumptions C99_robust.

(** ** Examples and counterexamples *)

Definition box (s : platform) (fl : Z) (known : bool) : world :=
  {| os := s; has_psutil := true; floor := fl; nice_known := true; has_affinity := true; cpus_known := known; cpus_ok := fun _ => true;
     winmm := true; kernel32 := true; class_ok := fun _ => true; begin_ok := true; end_ok := true; popen_ok := true; terminate_ok := true |}.
Definition all_on : options :=
  {| single_thread_math := true; prefer_isolated_cpus := true; warmup_seconds := 0; adjust_priority := true; tweak_timer_windows := true; keep_mac_awake := true |}.
Definition start (n : Z) (l : list nat) : proc :=
  {| nice := n; priority := Normal; cpus := l; gc_on := true; timers := 0; helpers := 0; vars := [("OMP_NUM_THREADS", "4")]%string |}.
(** A block that tells what it saw. *)
Definition look (q : proc) : proc * proc := (q, q).
Lemma look_tidy : tidy look.
Proof. now intros q. Qed.

Definition after (w : world) (p : proc) : proc := fst (stable_perf w all_on look p).
Lemma after_eq w p : exists out, stable_perf w all_on look p = (after w p, out).
Proof. unfold after. destruct (stable_perf w all_on look p) as [r out]. now exists out. Qed.

(** C99 finding: on Windows the priority class is raised and never put back: the process stays at high priority. *)
Theorem C99_priority_class_refuted :
  ~ (forall w o (block : proc -> proc * proc) p r out, stable_perf w o block p = (r, out) -> tidy block -> (forall c, class_ok w c = true) -> priority r = priority p).
Proof.
  intros H. destruct (after_eq (box Windows 0 true) (start 0 [0])) as [out E]. specialize (H _ _ _ _ _ _ E look_tidy (fun _ => eq_refl)).
  vm_compute in H. discriminate.
Qed.
Print Assumptions C99_priority_class_refuted.

(** C99 finding: a process that has a negative niceness but may not lower it loses its priority for good: it is moved to the
    next of -10, -5 and 0 that is allowed, from which it cannot go back. *)
Theorem C99_niceness_refuted :
  ~ (forall w o (block : proc -> proc * proc) p r out, stable_perf w o block p = (r, out) -> tidy block -> nice r = nice p).
Proof.
  intros H. destruct (after_eq (box Linux 0 true) (start (-3) [0])) as [out E]. specialize (H _ _ _ _ _ _ E look_tidy). vm_compute in H. discriminate.
Qed.
Print Assumptions C99_niceness_refuted.

(** C99 finding: nor is the priority always raised: a process at niceness -20 runs its benchmark at -10. *)
Theorem C99_not_lowered_refuted :
  ~ (forall w o (block : proc -> proc * proc) p r q, stable_perf w o block p = (r, Ran (snd (block q))) -> tidy block -> snd (block q) = q -> nice q <= nice p)%Z.
Proof.
  intros H. specialize (H (box Linux (-20) true) all_on look (start (-20) [0])).
  assert (E : exists r q, stable_perf (box Linux (-20) true) all_on look (start (-20) [0]) = (r, Ran (snd (look q))) /\ nice q = (-10)%Z).
  { unfold look. cbn [snd]. do 2 eexists. split; vm_compute; reflexivity. }
  destruct E as [r [q [E N]]]. specialize (H r q E look_tidy eq_refl). rewrite N in H. vm_compute in H. now apply H.
Qed.
Print Assumptions C99_not_lowered_refuted.

(** C99 finding: the variables that restrict threads stay set after the block. *)
Theorem C99_environment_refuted :
  ~ (forall w o (block : proc -> proc * proc) p r out k, stable_perf w o block p = (r, out) -> tidy block -> get k (vars r) = get k (vars p)).
Proof.
  intros H. destruct (after_eq (box Linux 0 true) (start 0 [0])) as [out E]. specialize (H _ _ _ _ _ _ "MKL_NUM_THREADS"%string E look_tidy).
  vm_compute in H. discriminate.
Qed.
Print Assumptions C99_environment_refuted.

(** C99 finding: if the system does not let the process read or choose its CPUs, the block is not run at all: unlike the other
    adjustments this one is not a mere attempt. *)
Theorem C99_best_effort_refuted :
  ~ (forall w o (block : proc -> proc * proc) p r out, stable_perf w o block p = (r, out) -> os w = Linux -> exists x, out = Ran x).
Proof.
  intros H. destruct (H (box Linux 0 false) all_on look (start 0 [0]) _ NotRun eq_refl eq_refl) as [x E]. discriminate.
Qed.
Print Assumptions C99_best_effort_refuted.

(** C99 finding: with three CPUs the first is one of the two chosen, which is what the choice is meant to avoid. *)
Theorem C99_first_cpu_refuted :
  ~ (forall l a b x r, settled l [a; b] -> l = x :: r -> NoDup l -> 3 <= length l -> x <> a /\ x <> b).
Proof.
  intros H. destruct (H [0; 1; 2] 0 1 0 [1; 2]) as [K _]; auto.
  - right. split; [cbn; lia|]. exists 0, 1. split; [|reflexivity]. exists [], [2]. auto.
  - repeat constructor; cbn; lia.
Qed.
Print Assumptions C99_first_cpu_refuted.

(** C99 finding: with an even number of hands the value is the upper of the two middle averages, not their median: of 1 and 2 it
    is 2. *)
Theorem C99_median_refuted :
  ~ (forall samples k means v, samples <> [] -> median_of_means samples k = Some v -> Z.of_nat (length means) = Z.max 1 (Z.min k (Z.of_nat (length samples))) ->
     dealt samples means -> is_median v means).
Proof.
  intros H. assert (E : median_of_means [1; 2]%Q 5 = Some (2 # 1)%Q) by (vm_compute; reflexivity).
  specialize (H [1; 2]%Q 5%Z [1; 2]%Q _ ltac:(discriminate) E eq_refl). destruct H as [_ [s [P [So V]]]].
  - intros [|[|b]] m N; cbn in N; try (injection N as <-; split; [discriminate|vm_compute; reflexivity]). destruct b; discriminate.
  - cbn in V. assert (Ls : length s = 2) by (symmetry; apply (Permutation_length P)). destruct s as [|a [|b [|? ?]]]; try discriminate Ls.
    apply Permutation_length_2_inv in P as [P|P]; injection P as -> ->; cbn in V; vm_compute in V; discriminate.
Qed.
Print Assumptions C99_median_refuted.

(** C99 finding: if the finer timer is refused, the end of the block still gives one back: a period the program had asked for itself
    is ended. *)
Theorem C99_timer_refuted :
  ~ (forall w o (block : proc -> proc * proc) p r out, stable_perf w o block p = (r, out) -> tidy block -> end_ok w = true -> timers r = timers p).
Proof.
  intros H. set (w := {| os := Windows; has_psutil := false; floor := 0; nice_known := true; has_affinity := true; cpus_known := true; cpus_ok := fun _ => true;
    winmm := true; kernel32 := true; class_ok := fun _ => true; begin_ok := false; end_ok := true; popen_ok := true; terminate_ok := true |}).
  set (p := set_timers (start 0 [0]) 1). destruct (after_eq w p) as [out E]. specialize (H _ _ _ _ _ _ E look_tidy eq_refl). vm_compute in H. discriminate.
Qed.
Print Assumptions C99_timer_refuted.

(** A privileged process at niceness 5 on five CPUs: -10 and the CPUs 1 and 2 inside; all as before afterwards, but for the variables.
    On a Mac a helper runs inside.  Seven values, one of them an outlier, dealt out to three. *)
Example C99_case :
  (exists r q, stable_perf (box Linux (-20) true) all_on look (start 5 [0; 1; 2; 3; 4]) = (r, Ran q) /\
     nice q = (-10)%Z /\ cpus q = [1; 2] /\ gc_on q = false /\ nice r = 5%Z /\ cpus r = [0; 1; 2; 3; 4] /\ gc_on r = true /\
     get "OMP_NUM_THREADS" (vars r) = Some "4" /\ get "MKL_NUM_THREADS" (vars r) = Some "1")%string /\
  (exists r q, stable_perf (box Mac 0 true) all_on look (start 5 [0; 1; 2; 3; 4]) = (r, Ran q) /\
     nice q = 0%Z /\ helpers q = 1 /\ cpus q = [0; 1; 2; 3; 4] /\ nice r = 5%Z /\ helpers r = 0) /\
  may_return (box Linux (-20) true) (start 5 [0]) /\ unhindered (box Linux (-20) true) all_on (start 5 [0]) /\
  (exists v, median_of_means [3; 1; 2; 3; 1000; 2; 3]%Q 3 = Some v /\ v == 3)%Q /\
  (exists v, median_of_means [4; 1]%Q 1 = Some v /\ v == 5 # 2)%Q.
Proof.
  split; [do 2 eexists; split; [vm_compute; reflexivity|vm_compute; repeat split; reflexivity]|]. split; [do 2 eexists; split; [vm_compute; reflexivity|vm_compute; repeat split; reflexivity]|].
  split; [right; cbn; lia|]. split; [split; [reflexivity|]; cbn; auto|].
  split; eexists; split; vm_compute; reflexivity.
Qed.
