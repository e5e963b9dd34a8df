(** C98: comparing two versions with [ezmsg perf ab]. *)
From Coq Require Import String Ascii.
From Coq Require Import List Arith QArith Bool Permutation.
From Verif Require Import Dict PerfSpec AbModel AbSpec AbProofs.
Import ListNotations.
Local Open Scope nat_scope.

(** A report stands for the rounds asked for, half of which start with A, and for figures that were measured in them. *)
Theorem C98_report w o s n cs : shuffles w -> keep o = false -> perf_ab w o = (s, Report n cs) -> report_ok w o s n cs.
Proof. apply report. Qed.
Print Assumptions C98_report.

(** Every child is started in its side's tree, with its side's interpreter and environment. *)
Theorem C98_children w o s r m l j : shuffles w -> perf_ab w o = (s, r) -> In (m, l, j) (runs s) -> started_right w o l j.
Proof. apply children. Qed.
Print Assumptions C98_children.

(** Whatever happens, no worktree is left; and no directory, if git could make the worktrees. *)
Theorem C98_nothing_left w o s r : shuffles w -> keep o = false -> (forall l, remove_ok w l = true) -> perf_ab w o = (s, r) ->
  worktrees s = [] /\ ((forall l, add_ok w l = true) -> temps s = []).
Proof. apply no_left. Qed.
Print Assumptions C98_nothing_left.

(** With --keep-worktrees those used are still there. *)
Theorem C98_kept w o s r m l j : shuffles w -> keep o = true -> perf_ab w o = (s, r) -> In (m, l, j) (runs s) -> where_ j = Work l ->
  In l (worktrees s).
Proof. apply kept. Qed.
Print Assumptions C98_kept.

(** Without it, what is raised is what went wrong. *)
Theorem C98_errors_reported w o s : shuffles w -> keep o = false -> perf_ab w o <> (s, Raises Unbound) /\ perf_ab w o <> (s, Raises NoPairs).
Proof. apply own_errors. Qed.
Print Assumptions C98_errors_reported.

(** Arguments that make no sense are refused before anything is done. *)
Theorem C98_bad_arguments w o : ~ good_args o -> exists e, perf_ab w o = (fresh, Raises e) /\ (e = BadArgs \/ e = BadEnv).
Proof. apply rejects. Qed.
Print Assumptions C98_bad_arguments.

(** And when nothing goes wrong there is a report, of every case. *)
Theorem C98_works w o ids : shuffles w -> good_args o -> shared o = true ->
  (python_a o = None \/ python_b o = None \/ python_a o = python_b o) ->
  (forall l, add_ok w l = true) -> (forall l, remove_ok w l = true) -> (forall l, probe_ok w l = true) ->
  (force o = true \/ forall t t', meta w t = meta w t') ->
  (forall i j, exists d, bench w i j = Some d /\ fine ids d) ->
  exists s cs, perf_ab w o = (s, Report (rounds o) cs) /\ map case_id cs = ids.
Proof.
  intros Sh [R [Da [Db [_ [E1 [E2 E3]]]]]] Sd Py Ad Rm Pb Me Be.
  apply works; auto. intros vs [<- |[<- |[<- |[]]]]; assumption.
Qed.
Print Assumptions C98_works.

(** A case in which B was faster in every round is not called a regression. *)
Theorem C98_unanimous c xs ys : says c xs ys -> Forall (fun p => 0 < fst p /\ snd p < fst p)%Q (combine xs ys) -> regression c = false.
Proof. apply unanimous. Qed.
Print Assumptions C98_unanimous.

(** ** Examples and counterexamples *)

Definition the_world (add_b : bool) (bench : nat -> job -> option figures) : world :=
  {| root := "/repo"; base_env := [("HOME", "/h"); ("X", "0")]%string;
     src := fun t => match t with Path p => (p ++ "/src")%string | Work A => "/tmp/a/src"%string | Work B => "/tmp/b/src"%string end;
     venv := fun p => if String.eqb p "/usr/bin/p1" then Some "/usr"%string else if String.eqb p "/usr/bin/p2" then Some "/usr"%string else None;
     sys_python := "py"%string; discover := fun _ => None; meta := fun _ => (0, 0);
     add_ok := fun l => match l with A => true | B => add_b end; remove_ok := fun _ => true; probe_ok := fun _ => true;
     shuffle := fun l => l; bench := bench |}.
Definition the_options (r : nat) (k : bool) : options :=
  {| ref_a := None; ref_b := Some "b2"%string; dir_a := None; dir_b := None; python_a := None; python_b := None;
     shared := true; force := false; env := ["X=1"; "Y=2"]%string; env_a := []; env_b := ["X=3"]%string;
     rounds := r; prewarm := 1; keep := k |}.

Lemma the_shuffles b f : shuffles (the_world b f).
Proof. intros l. apply Permutation_refl. Qed.

(** Two seconds on side A, one on side B; the last argument is the child that fails. *)
Definition steady (bad : nat) (n : nat) (j : job) : option figures :=
  if n =? bad then None else Some [("c"%string, match where_ j with Work A => 2 | _ => 1 end)]%Q.

Definition outcome_of (w : world) (o : options) : result := snd (perf_ab w o).

Lemma outcome_eq w o r : outcome_of w o = r -> perf_ab w o = (fst (perf_ab w o), r).
Proof. intros <-. unfold outcome_of. now destruct (perf_ab w o). Qed.

(** C98 finding: with --keep-worktrees the [return] in the clean-up drops the exception of a failing benchmark; a report is
    printed that claims all rounds although the case has the pairs of those before the failure only. *)
Theorem C98_kept_report_refuted :
  ~ (forall w o s n cs, shuffles w -> perf_ab w o = (s, Report n cs) -> Forall (fun c => pair_count c = n) cs).
Proof.
  intros H.
  set (w := the_world true (steady 5)). set (o := the_options 2 true).
  assert (E : exists c, outcome_of w o = Report 2 [c] /\ pair_count c = 1) by (eexists; split; vm_compute; reflexivity).
  destruct E as [c [E P]]. apply outcome_eq in E. specialize (H w o _ _ _ (the_shuffles _ _) E).
  apply Forall_inv in H. congruence.
Qed.
Print Assumptions C98_kept_report_refuted.

(** C98 finding: with --keep-worktrees, if git cannot make B's worktree the command fails with UnboundLocalError instead of
    saying what git said. *)
Theorem C98_kept_errors_refuted : ~ (forall w o s, shuffles w -> perf_ab w o <> (s, Raises Unbound)).
Proof.
  intros H. eapply (H (the_world false (steady 9)) (the_options 2 true)); [apply the_shuffles|]. apply outcome_eq. vm_compute. reflexivity.
Qed.
Print Assumptions C98_kept_errors_refuted.

(** C98 finding: if git cannot make a worktree, the temporary directory made for it is left behind, even without
    --keep-worktrees. *)
Theorem C98_no_directory_left_refuted :
  ~ (forall w o s r, shuffles w -> keep o = false -> (forall l, remove_ok w l = true) -> perf_ab w o = (s, r) -> temps s = []).
Proof.
  intros H. set (w := the_world false (steady 9)). set (o := the_options 2 false).
  specialize (H w o (fst (perf_ab w o)) (snd (perf_ab w o)) (the_shuffles _ _) eq_refl (fun _ => eq_refl)).
  assert (E : temps (fst (perf_ab w o)) = [B]) by (vm_compute; reflexivity).
  rewrite E in H. discriminate H. now destruct (perf_ab w o).
Qed.
Print Assumptions C98_no_directory_left_refuted.

(** A: 1, 3, 100; B: 2, 4, 1/2; nothing warmed up; A first, B first, A first. *)
Definition torn (n : nat) (j : job) : option figures :=
  Some [("c"%string, nth n [1; 2; 4; 3; 100; 1 # 2] 1)]%Q.
Definition cold (o : options) : options :=
  {| ref_a := ref_a o; ref_b := ref_b o; dir_a := dir_a o; dir_b := dir_b o; python_a := python_a o; python_b := python_b o;
     shared := shared o; force := force o; env := env o; env_a := env_a o; env_b := env_b o; rounds := rounds o; prewarm := 0; keep := keep o |}.

(** C98 finding: the median of the rounds' differences decides, not the two medians printed beside it: a case can be called a
    regression although the median shown for B is lower than the one shown for A. *)
Theorem C98_regression_is_slower_refuted :
  ~ (forall w o s n cs c, shuffles w -> keep o = false -> perf_ab w o = (s, Report n cs) -> In c cs -> regression c = true ->
     a_median c <= b_median c)%Q.
Proof.
  intros H. set (w := the_world true torn). set (o := cold (the_options 3 false)).
  assert (E : exists c, outcome_of w o = Report 3 [c] /\ regression c = true /\ Qle_bool (a_median c) (b_median c) = false)
    by (eexists; split; [|split]; vm_compute; reflexivity).
  destruct E as [c [E [R L]]]. apply outcome_eq in E. specialize (H w o _ _ _ c (the_shuffles _ _) eq_refl E (or_introl eq_refl) R).
  apply Qle_bool_iff in H. congruence.
Qed.
Print Assumptions C98_regression_is_slower_refuted.

Definition two_pythons : options :=
  {| ref_a := Some "CURRENT"%string; ref_b := None; dir_a := None; dir_b := None;
     python_a := Some "/usr/bin/p1"%string; python_b := Some "/usr/bin/p2"%string;
     shared := false; force := false; env := []; env_a := []; env_b := []; rounds := 2; prewarm := 1; keep := false |}.

(** C98 finding: a side whose interpreter differs from the other's is not warmed up if the two interpreters are in one
    directory and the sides share a tree: only tree and environment are compared. *)
Theorem C98_both_warm_refuted :
  ~ (forall w o s n cs l j, shuffles w -> keep o = false -> 0 < prewarm o -> perf_ab w o = (s, Report n cs) -> In (true, l, j) (runs s) ->
     exists l' j', In (false, l', j') (runs s) /\ python j' = python j).
Proof.
  intros H. set (w := the_world true (steady 99)). set (o := two_pythons).
  assert (E : exists cs, outcome_of w o = Report 2 cs) by (eexists; vm_compute; reflexivity). destruct E as [cs E].
  apply outcome_eq in E.
  assert (Rs : exists jb js, nth_error (runs (fst (perf_ab w o))) 2 = Some (true, B, jb) /\ python jb = "/usr/bin/p2"%string /\
     filter (fun r => negb (is_measured r)) (runs (fst (perf_ab w o))) = [(false, A, js)] /\ python js = "/usr/bin/p1"%string)
    by (do 2 eexists; split; [|split; [|split]]; vm_compute; reflexivity).
  destruct Rs as [jb [js [N [Pb [F Pa]]]]].
  destruct (H w o _ _ _ B jb (the_shuffles _ _) eq_refl ltac:(vm_compute; auto) E (nth_error_In _ _ N)) as [l' [j' [I P]]].
  assert (I' : In (false, l', j') (filter (fun r => negb (is_measured r)) (runs (fst (perf_ab w o))))) by (apply filter_In; auto).
  rewrite F in I'. destruct I' as [I'|[]]. injection I' as <- <-. congruence.
Qed.
Print Assumptions C98_both_warm_refuted.

Definition own_venv : options :=
  {| ref_a := Some "CURRENT"%string; ref_b := None; dir_a := None; dir_b := None;
     python_a := Some "/usr/bin/p1"%string; python_b := None;
     shared := true; force := false; env := ["VIRTUAL_ENV=/mine"]%string; env_a := []; env_b := []; rounds := 1; prewarm := 0; keep := false |}.

(** C98 finding: VIRTUAL_ENV cannot be set with --env: it is overwritten with the directory of the interpreter. *)
Theorem C98_every_variable_refuted :
  ~ (forall w o s r m l j k, shuffles w -> perf_ab w o = (s, r) -> In (m, l, j) (runs s) -> name k -> k <> "PYTHONPATH"%string ->
     value_for w (AbModel.env o) (own_env o l) k (get k (environ j))).
Proof.
  intros H. set (w := the_world true (steady 99)). set (o := own_venv).
  assert (Rs : exists j, nth_error (runs (fst (perf_ab w o))) 0 = Some (true, A, j) /\ get "VIRTUAL_ENV"%string (environ j) = Some "/usr"%string)
    by (eexists; split; vm_compute; reflexivity).
  destruct Rs as [j [N G]].
  destruct (H w o (fst (perf_ab w o)) (snd (perf_ab w o)) true A j "VIRTUAL_ENV"%string (the_shuffles _ _)) as [_ [V _]].
  - now destruct (perf_ab w o).
  - exact (nth_error_In _ _ N).
  - split; [discriminate|]. cbn. intuition discriminate.
  - discriminate.
  - specialize (V ltac:(intros v []) "/mine"%string). rewrite G in V. assert (K : Some "/usr"%string = Some "/mine"%string); [|discriminate].
    apply V. exists [], []. split; [reflexivity|intros v' []].
Qed.
Print Assumptions C98_every_variable_refuted.

(** Three rounds: A first, B first, A first, after a child of each side; X is 1 for A and 3 for B, Y is 2 for both; B takes half the
    time in every round.  The worktrees are gone, or still there. *)
Example C98_case :
  (exists s c, perf_ab (the_world true (steady 99)) (the_options 3 false) = (s, Report 3 [c]) /\
     worktrees s = [] /\ temps s = [] /\
     map (fun r => (is_measured r, label_of r)) (runs s) =
       [(false, A); (false, B); (true, A); (true, B); (true, B); (true, A); (true, A); (true, B)] /\
     map (fun r => (get "X" (environ (job_of r)), get "Y" (environ (job_of r)), get "HOME" (environ (job_of r)))%string) (firstn 2 (runs s)) =
       [(Some "1", Some "2", Some "/h"); (Some "3", Some "2", Some "/h")]%string /\
     (a_median c == 2)%Q /\ (b_median c == 1)%Q /\ (delta_median c == - (50))%Q /\ pair_count c = 3 /\ b_faster c = 3 /\ regression c = false) /\
  (exists s c, perf_ab (the_world true (steady 99)) (the_options 3 true) = (s, Report 3 [c]) /\ worktrees s = [A; B]) /\
  (exists s, perf_ab (the_world true (steady 3)) (the_options 3 false) = (s, Raises BenchFailed) /\ worktrees s = [] /\ length (runs s) = 4) /\
  good_args (the_options 3 false) /\ ~ good_args (the_options 0 false).
Proof.
  split; [do 2 eexists; split; [vm_compute; reflexivity|vm_compute; repeat split; reflexivity]|].
  split; [do 2 eexists; split; [vm_compute; reflexivity|vm_compute; reflexivity]|].
  split; [eexists; split; [vm_compute; reflexivity|vm_compute; repeat split; reflexivity]|].
  split; [|intros [K _]; inversion K].
  split; [cbn; auto with arith|]. split; [auto|]. split; [auto|]. split; [discriminate|]. cbn.
  assert (N : name "X"%string /\ name "Y"%string) by (split; split; try discriminate; cbn; intuition discriminate).
  repeat split; repeat constructor.
  - exists "X"%string, "1"%string. split; [apply N|reflexivity].
  - exists "Y"%string, "2"%string. split; [apply N|reflexivity].
  - exists "X"%string, "3"%string. split; [apply N|reflexivity].
Qed.
