(* Property C62: a process control command reports the server's answer to it. *)

From Coq Require Import List Arith Bool Lia.
From Verif Require Import AckModel.
Import ListNotations.

Definition never_expires (t : list aevent) : Prop := forall n, ~ In (Expire n) t.

Definition reported (b : bool) : outcome := if b then Completed else CommandFailed.

Lemma ack_inv verdict s t : arun verdict s t -> never_expires t ->
  exists w, a_waiting s = w ++ a_server s /\ a_queue s = map verdict w /\
    map fst (a_outcomes s) ++ a_waiting s = seq 0 (a_next s) /\
    (forall n o, In (n, o) (a_outcomes s) -> o = reported (verdict n)).
Proof.
  induction 1 as [|s t e s' R IH E]; intros N.
  - exists []. cbn. split; [reflexivity|]. split; [reflexivity|]. split; [reflexivity|]. intros n o K; destruct K.
  - destruct IH as [w [W [Q [L O]]]]. { intros n I. apply (N n). apply in_app_iff. now left. }
    destruct e; cbn in E.
    + injection E as <-. exists w. cbn [a_waiting a_server a_queue a_outcomes a_next]. rewrite W, app_assoc. split; [reflexivity|]. split; [assumption|].
      split; [|assumption]. rewrite seq_S, <- L, W. cbn. now rewrite !app_assoc.
    + destruct (a_server s) as [|n r] eqn:Es; [discriminate|]. injection E as <-. exists (w ++ [n]).
      cbn [a_waiting a_server a_queue a_outcomes a_next]. rewrite W, Q, map_app, <- app_assoc. rewrite W in L. auto.
    + destruct (a_waiting s) as [|n w'] eqn:Ew; [discriminate|]. destruct (a_queue s) as [|b q] eqn:Eq; [discriminate|].
      injection E as <-. destruct w as [|n' w]; [discriminate|]. cbn in W, Q. injection W as <- W. injection Q as -> Q.
      exists w. cbn [a_waiting a_server a_queue a_outcomes a_next]. split; [assumption|]. split; [assumption|]. split.
      * rewrite map_app. cbn. rewrite <- app_assoc. exact L.
      * intros m o I. apply in_app_iff in I as [I|[I|K]]; [now apply O| |destruct K]. now injection I as <- <-.
    + exfalso. apply (N n). apply in_app_iff. right. now left.
Qed.

(** As long as no command has timed out, every outcome is the server's answer to
    that very command, and commands finish in the order in which they were sent.
    Missing from the full claim: commands sent after a time-out. *)
Theorem C62_outcome_is_the_answer_partial :
  forall (verdict : nat -> bool) (s : acks) (t : list aevent),
  arun verdict s t -> never_expires t ->
  (forall n o, In (n, o) (a_outcomes s) -> o = if verdict n then Completed else CommandFailed) /\
  map fst (a_outcomes s) = seq 0 (length (a_outcomes s)).
Proof.
  intros verdict s t R N. destruct (ack_inv verdict s t R N) as [w [_ [_ [L O]]]]. split; [exact O|].
  apply (f_equal (firstn (length (a_outcomes s)))) in L.
  rewrite <- (map_length fst), firstn_app, Nat.sub_diag, firstn_all in L. cbn in L. rewrite app_nil_r in L.
  rewrite map_length in L. rewrite L.
  assert (Le : length (a_outcomes s) <= a_next s).
  { destruct (ack_inv verdict s t R N) as [w' [_ [_ [L' _]]]]. apply (f_equal (@length _)) in L'.
    rewrite app_length, map_length, seq_length in L'. lia. }
  clear -Le. revert Le. generalize (length (a_outcomes s)) as n, (a_next s) as m, 0 as k.
  induction n as [|n IH]; intros m k Le; [reflexivity|]. destruct m as [|m]; [lia|]. cbn. f_equal. apply IH. lia.
Qed.
Print Assumptions C62_outcome_is_the_answer_partial.

Fixpoint aplay (verdict : nat -> bool) (s : acks) (es : list aevent) : option acks :=
  match es with
  | [] => Some s
  | e :: r => match astep verdict s e with Some s' => aplay verdict s' r | None => None end
  end.

Lemma aplay_run verdict es : forall s t s', arun verdict s t -> aplay verdict s es = Some s' -> arun verdict s' (t ++ es).
Proof.
  induction es as [|e es IH]; intros s t s' R E; cbn in E; [injection E as <-; now rewrite app_nil_r|].
  destruct (astep verdict s e) as [s1|] eqn:E1; [|discriminate].
  change (e :: es) with ([e] ++ es). rewrite app_assoc. eapply IH; [|exact E]. econstructor; eauto.
Qed.

(** After one time-out, the late answer is taken for the answer to the next
    command: a command that the server refused is reported as completed. *)
Theorem C62_late_answer_refuted :
  exists (verdict : nat -> bool) (s : acks) (t : list aevent),
    arun verdict s t /\ verdict 1 = false /\ In (1, Completed) (a_outcomes s).
Proof.
  exists (fun n => Nat.eqb n 0). eexists. exists [Send; Expire 0; Answer; Send; Answer; Wake]. split.
  - eapply (aplay_run _ _ no_acks []); [apply arun_start|reflexivity].
  - split; [reflexivity|]. cbn. right. now left.
Qed.
Print Assumptions C62_late_answer_refuted.

(** Two callers at once; the first command is refused. *)
Example C62_case :
  exists s, let t := [Send; Send; Answer; Answer; Wake; Send; Wake] in
    arun (fun n => negb (Nat.eqb n 0)) s t /\ never_expires t /\
    a_outcomes s = [(0, CommandFailed); (1, Completed)] /\ a_waiting s = [2].
Proof.
  eexists. split; [eapply (aplay_run _ _ no_acks []); [apply arun_start|reflexivity]|]. split.
  - intros n I. repeat (destruct I as [I|I]; [discriminate I|]). exact I.
  - split; reflexivity.
Qed.
