(* C91: the log file of the profiling decorators. *)

From Coq Require Import List Arith Bool Lia.
From Verif Require Import ProfLogModel ProfLogSpec ProfLogProofs.
Import ListNotations.

(** Processes of one version, however their imports overlap: none fails; every sample that was logged, by whomever,
    is in the file, in order, after what was there; and the first line is the header. *)
Theorem C91_nothing_lost :
  forall v old l s, old_fits v old -> all_of_version v l -> run (init old) l = Some s ->
  nobody_crashed s /\ fits v (on_disk s) /\ samples (on_disk s) = samples (old_lines old) ++ logged l.
Proof.
  intros v old l s O V R. destruct (inv_run v old l s O V R) as [(P & -> & F & G & E)|(c & P & F & FT & SA & C & _)].
  - unfold on_disk. rewrite P, G. repeat split; [|left; reflexivity]. intros x I. destruct (E x I) as (_ & [A|A]); congruence.
  - unfold on_disk. rewrite P, F. cbn. repeat split; auto. intros x I. destruct (C x I) as (_ & H). destruct (at_ x); congruence || contradiction.
Qed.

(** Processes that import one after the other, of whatever versions: none fails, there is at most one header, and
    where a process writes to the file on disk, its first line is a header. *)
Theorem C91_one_at_a_time :
  forall old l s, headers (old_lines old) <= 1 -> one_at_a_time old l -> run (init old) l = Some s ->
  nobody_crashed s /\ headers (on_disk s) <= 1 /\
  forall x f, In x (procs s) -> at_ x = Running f -> dbg x = true -> path s = Some f -> exists w r, on_disk s = Head w :: r.
Proof.
  intros old l s H OT R. destruct (inv2_run old l s H OT R) as (_ & _ & RU & LO & HD). repeat split; auto.
  - intros x I E. apply In_nth_error in I as (p & PX). specialize (LO p x PX). unfold last_ok in LO. rewrite E in LO. exact LO.
  - intros x f I A D P. destruct (RU x f I A D) as (_ & ST). unfold on_disk. rewrite P. exact (ST P).
Qed.

(** C91 finding: two processes that import the module at the same time (as the processes of one system do) each find no
    header and each write one; the second is in the midst of the samples. *)
Theorem C91_two_headers_refuted :
  ~ (forall v l s, all_of_version v l -> run (init None) l = Some s -> headers (on_disk s) <= 1).
Proof.
  intros H. destruct (run (init None) [Launch 1 true; Launch 1 true; Go 0; Go 1; Go 0; Go 0; Log 0 5; Go 1; Go 1]) as [s|] eqn:R; [|discriminate].
  assert (V : all_of_version 1 [Launch 1 true; Launch 1 true; Go 0; Go 1; Go 0; Go 0; Log 0 5; Go 1; Go 1]) by (intros w d I; cbn in I; intuition congruence).
  specialize (H 1 _ s V R). cbn in R. injection R as <-. cbn in H. lia.
Qed.

(** C91 finding: a process of another version removes the file while others are writing to it: what they have logged is
    gone, and what they log from then on goes to no file. *)
Theorem C91_samples_lost_refuted :
  ~ (forall old l s, one_at_a_time old l -> run (init old) l = Some s -> samples (on_disk s) = samples (old_lines old) ++ logged l).
Proof.
  intros H. set (l := [Launch 1 true; Go 0; Go 0; Go 0; Log 0 5; Launch 2 true; Go 1; Go 1; Go 1; Go 1; Go 1; Log 0 6; Log 1 7]).
  destruct (run (init None) l) as [s|] eqn:R; [|discriminate].
  assert (O : one_at_a_time None l).
  { intros l1 v d l2 s1 E R1. unfold l in E. destruct l1 as [|e l1]; [injection R1 as <-; intros x []|]. injection E as <- E.
    do 4 (destruct l1 as [|e l1]; [discriminate E|injection E as <- E]). destruct l1 as [|e l1]; [cbn in R1; injection R1 as <-; intros x [<-|[]]; cbn; eauto|]. injection E as <- E.
    do 7 (destruct l1 as [|e l1]; [discriminate E|injection E as <- E]). destruct l1; discriminate E. }
  specialize (H None l s O R). vm_compute in R. injection R as <-. discriminate H.
Qed.

(** C91 finding: two processes that find a file of another version at the same time: the second fails with
    FileNotFoundError when it removes the file that the first has removed, and its import, and so the process, fails. *)
Theorem C91_crash_refuted :
  ~ (forall v old l s, all_of_version v l -> run (init old) l = Some s -> nobody_crashed s).
Proof.
  intros H. set (l := [Launch 2 true; Launch 2 true; Go 0; Go 1; Go 0; Go 1; Go 0; Go 1]).
  destruct (run (init (Some [Head 1; Sample 0 0])) l) as [s|] eqn:R; [|discriminate].
  assert (V : all_of_version 2 l) by (intros w d I; cbn in I; intuition congruence).
  specialize (H 2 _ l s V R). vm_compute in R. injection R as <-. apply (H (mkProc 2 true Crashed)); cbn; auto.
Qed.

(** A file of the right version, a process that logs, one that does not, and a third one, one after the other. *)
Example C91_case :
  let l := [Launch 1 true; Go 0; Go 0; Go 0; Go 0; Log 0 5; Launch 1 false; Go 1; Go 1; Go 1; Go 1; Launch 1 true; Go 2; Log 0 6; Go 2; Go 2; Go 2; Log 2 7] in
  exists s, run (init (Some [Head 1; Sample 9 9])) l = Some s /\ old_fits 1 (Some [Head 1; Sample 9 9]) /\ all_of_version 1 l /\
  on_disk s = [Head 1; Sample 9 9; Sample 0 5; Sample 0 6; Sample 2 7] /\ headers (on_disk s) = 1.
Proof.
  eexists. split; [vm_compute; reflexivity|]. split; [right; eexists; reflexivity|]. split; [intros w d I; cbn in I; intuition congruence|]. split; reflexivity.
Qed.

(** One after the other, with an old file of another version. *)
Example C91_old_file_case :
  let l := [Launch 2 true; Go 0; Go 0; Go 0; Go 0; Go 0; Log 0 3] in
  exists s, run (init (Some [Head 1; Sample 9 9])) l = Some s /\ one_at_a_time (Some [Head 1; Sample 9 9]) l /\ on_disk s = [Head 2; Sample 0 3].
Proof.
  eexists. split; [vm_compute; reflexivity|]. split; [|reflexivity]. intros l1 v d l2 s E R. destruct l1 as [|e l1]; [injection R as <-; intros x []|]. injection E as <- E.
  do 6 (destruct l1 as [|e l1]; [discriminate E|injection E as <- E]). destruct l1; discriminate E.
Qed.

Print Assumptions C91_nothing_lost.
Print Assumptions C91_one_at_a_time.
Print Assumptions C91_two_headers_refuted.
Print Assumptions C91_samples_lost_refuted.
Print Assumptions C91_crash_refuted.
