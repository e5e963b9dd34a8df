(* C50: a message gate forwards exactly the messages that arrive while it is open. *)

From Coq Require Import List ZArith Bool Lia.
From Verif Require Import GateModel.
Import ListNotations.
Open Scope Z_scope.

(** ** Specification *)

Section Spec.
Context {M : Type}.
Variable c : settings.

(** The number of messages in a history. *)
Definition arrivals (h : list (event M)) : Z := Z.of_nat (length (filter (fun e => match e with Arrive _ => true | _ => false end) h)).

(** [since h k]: the last k messages of the history h arrived since the gate last changed, or since
    the start if it has not. *)
Inductive since : list (event M) -> Z -> Prop :=
| since_start : since [] 0
| since_change h e g g' : after c h g -> step c g e = Some g' -> gate_open g <> gate_open g' -> since (e :: h) 0
| since_same h e g g' k : after c h g -> step c g e = Some g' -> gate_open g = gate_open g' -> since h k ->
    since (e :: h) (k + arrivals [e]).
End Spec.

(** The messages that arrived while the gate was open, newest first. *)
Inductive arrived_while_open {M} (c : settings) : list (event M) -> list M -> Prop :=
| awo_start : arrived_while_open c [] []
| awo_open h g m l : after c h g -> gate_open g = true -> arrived_while_open c h l -> arrived_while_open c (Arrive m :: h) (m :: l)
| awo_closed h g m l : after c h g -> gate_open g = false -> arrived_while_open c h l -> arrived_while_open c (Arrive m :: h) l
| awo_other h e l : (forall m, e <> Arrive m) -> arrived_while_open c h l -> arrived_while_open c (e :: h) l.

(** ** Lemmas *)

Lemma after_fun {M} c (h : list (event M)) : forall g g', after c h g -> after c h g' -> g = g'.
Proof.
  induction h as [|e h IH]; intros g g' A B; inversion A; inversion B; subst; [reflexivity|].
  match goal with X : after c h ?a, Y : after c h ?b |- _ => pose proof (IH _ _ X Y); subst end. congruence.
Qed.

Lemma set_gate_open {M} b (g : gate M) : gate_open (set_gate b g) = b.
Proof. unfold set_gate. destruct (Bool.eqb (gate_open g) b) eqn:E; [apply eqb_prop in E; exact E|reflexivity]. Qed.

Lemma set_gate_msgs {M} b (g : gate M) : msgs (set_gate b g) = if Bool.eqb (gate_open g) b then msgs g else 0.
Proof. unfold set_gate. destruct (Bool.eqb (gate_open g) b); reflexivity. Qed.

Lemma set_gate_same {M} b (g : gate M) : sent (set_gate b g) = sent g /\ publishing (set_gate b g) = publishing g.
Proof. unfold set_gate. destruct (Bool.eqb (gate_open g) b); auto. Qed.

Lemma revert_same {M} c (g : gate M) : sent (revert c g) = sent g /\ publishing (revert c g) = publishing g.
Proof. unfold revert. destruct (default_after c); [|auto]. destruct (_ && _); [apply set_gate_same|auto]. Qed.

(** C50.  A gate publishes exactly the messages that arrive while it is open, in order. *)
Theorem C50_forwards_what_arrives_while_open :
  forall M (c : settings) (h : list (event M)) g, after c h g -> arrived_while_open c h (sent g).
Proof.
  intros M c h g A. induction A as [|h g e g' A IH S]; [constructor|]. destruct e as [b|m|]; cbn [step] in S.
  - injection S as <-. rewrite (proj1 (set_gate_same b g)). apply awo_other; [discriminate|exact IH].
  - destruct (publishing g); [discriminate|]. destruct (gate_open g) eqn:O; injection S as <-.
    + cbn [sent]. eapply awo_open; eassumption.
    + rewrite (proj1 (revert_same _ _)). cbn [sent]. eapply awo_closed; eassumption.
  - destruct (publishing g); [|discriminate]. injection S as <-. rewrite (proj1 (revert_same _ _)). cbn [sent]. apply awo_other; [discriminate|exact IH].
Qed.
Print Assumptions C50_forwards_what_arrives_while_open.

(** C50.  Without default_after the gate is as the last command says, or as at the start. *)
Theorem C50_obeys_the_last_command :
  forall M (c : settings) (h : list (event M)) g, default_after c = None -> after c h g ->
    match find (fun e => match e with Command _ => true | _ => false end) h with
    | Some (Command b) => gate_open g = b
    | _ => gate_open g = start_open c
    end.
Proof.
  intros M c h g N A. induction A as [|h g e g' A IH S]; [reflexivity|].
  assert (R : forall x : gate M, revert c x = x) by (intros x; unfold revert; rewrite N; reflexivity).
  destruct e as [b|m|]; cbn [step] in S; cbn [find].
  - injection S as <-. apply set_gate_open.
  - assert (O : gate_open g' = gate_open g) by (destruct (publishing g); [discriminate|]; destruct (gate_open g); injection S as <-; [reflexivity|rewrite R; reflexivity]).
    rewrite O. exact IH.
  - assert (O : gate_open g' = gate_open g) by (destruct (publishing g); [|discriminate]; injection S as <-; rewrite R; reflexivity).
    rewrite O. exact IH.
Qed.
Print Assumptions C50_obeys_the_last_command.

(** The counter counts the messages since the last change. *)
Lemma msgs_since {M} c (h : list (event M)) g : after c h g -> since c h (msgs g).
Proof.
  induction 1 as [|h g e g' A IH S]; [constructor|].
  assert (R : forall x : gate M, gate_open x = gate_open g -> gate_open g' = gate_open (revert c x) -> msgs g' = msgs (revert c x) ->
            msgs x = msgs g + arrivals [e] -> since c (e :: h) (msgs g')).
  { intros x Ox Og Om Ex. destruct (Bool.bool_dec (gate_open g) (gate_open g')) as [O|O].
    - replace (msgs g') with (msgs g + arrivals [e]); [eapply since_same; eassumption|]. rewrite Om, <- Ex. rewrite Og in O. unfold revert in *.
      destruct (default_after c) as [n|]; [|reflexivity]. destruct (negb (Bool.eqb (gate_open x) (default_open c)) && (n <=? msgs x)) eqn:K; [|reflexivity].
      rewrite set_gate_open in O. rewrite Ox, O, eqb_reflx in K. discriminate.
    - replace (msgs g') with 0; [eapply since_change; eassumption|]. rewrite Om. rewrite Og in O. unfold revert in *. destruct (default_after c) as [n|]; [|congruence].
      destruct (negb (Bool.eqb (gate_open x) (default_open c)) && (n <=? msgs x)) eqn:K; [|congruence].
      rewrite set_gate_msgs. destruct (Bool.eqb (gate_open x) (default_open c)); [discriminate|reflexivity]. }
  destruct e as [b|m|]; pose proof S as S0; cbn [step] in S.
  - injection S as <-. rewrite set_gate_msgs. destruct (Bool.eqb (gate_open g) b) eqn:E.
    + apply eqb_prop in E. replace (msgs g) with (msgs g + arrivals [@Command M b]) by (cbn; lia). eapply since_same; [exact A|exact S0| |exact IH]. rewrite set_gate_open. exact E.
    + apply eqb_false_iff in E. eapply since_change; [exact A|exact S0|]. rewrite set_gate_open. exact E.
  - destruct (publishing g); [discriminate|]. destruct (gate_open g) eqn:O.
    + injection S as <-. cbn [msgs]. change 1 with (arrivals [Arrive m]) at 1. eapply since_same; [exact A|exact S0| |exact IH]. exact O.
    + injection S as <-. apply (R (Gate false (msgs g + 1) (sent g) false)); try reflexivity.
  - destruct (publishing g) eqn:P; [|discriminate]. injection S as <-. apply (R (Gate (gate_open g) (msgs g) (sent g) false)); try reflexivity. cbn. lia.
Qed.

(** C50.  If default_after is n > 0, then, when no message is being handled, a gate that is not in
    its default state has had fewer than n messages since its last change: after n messages it is
    in its default state. *)
Theorem C50_default_state_after_n_messages :
  forall M (c : settings) n (h : list (event M)) g k,
    default_after c = Some n -> 0 < n -> after c h g -> publishing g = false ->
    since c h k -> n <= k -> gate_open g = default_open c.
Proof.
  intros M c n h g k N Pn A P S L.
  assert (K : k = msgs g).
  { pose proof (msgs_since _ _ _ A) as S'. clear L P A. revert S'. generalize (msgs g) as k'. clear g. induction S as [|h e g g' A St O|h e g g' k A St O S IH]; intros k' S'.
    - inversion S'; reflexivity.
    - inversion S'; subst; [reflexivity|]. match goal with X : after c h ?a, Y : after c h ?b |- _ => pose proof (after_fun _ _ _ _ X Y); subst end. congruence.
    - inversion S'; subst.
      + match goal with X : after c h ?a, Y : after c h ?b |- _ => pose proof (after_fun _ _ _ _ X Y); subst end. congruence.
      + match goal with Z : since c h ?k' |- _ => rewrite (IH k') by assumption end. reflexivity. }
  subst k. clear S.
  assert (I : publishing g = false -> gate_open g <> default_open c -> msgs g < n); [|destruct (Bool.bool_dec (gate_open g) (default_open c)); [assumption|]; specialize (I P n0); lia].
  assert (R : forall x : gate M, gate_open (revert c x) <> default_open c -> msgs (revert c x) < n).
  { intros x. unfold revert. rewrite N. destruct (Bool.eqb (gate_open x) (default_open c)) eqn:E; cbn [negb andb].
    - apply eqb_prop in E. congruence.
    - destruct (n <=? msgs x) eqn:F; [rewrite set_gate_open; congruence|]. apply Z.leb_gt in F. auto. }
  clear L. induction A as [|h g e g' A IH S]; intros Pg O; [cbn; exact Pn|].
  destruct e as [b|m|]; cbn [step] in S.
  - injection S as <-. rewrite set_gate_msgs. rewrite set_gate_open in O. rewrite (proj2 (set_gate_same b g)) in *. destruct (Bool.eqb (gate_open g) b) eqn:E; [|exact Pn].
    apply eqb_prop in E. apply IH; [exact Pg|exact Pg|congruence].
  - destruct (publishing g); [discriminate|]. destruct (gate_open g); injection S as <-; [discriminate Pg|apply R; exact O].
  - destruct (publishing g); [|discriminate]. injection S as <-. apply R. exact O.
Qed.
Print Assumptions C50_default_state_after_n_messages.

(** C50.  A gate changes only by a command, or, to its default state, by the n-th message since
    its last change (or a later one). *)
Theorem C50_changes_only_by_command_or_count :
  forall M (c : settings) (h : list (event M)) e g g',
    after c h g -> step c g e = Some g' -> gate_open g <> gate_open g' ->
    e = Command (gate_open g') \/
    exists n k, default_after c = Some n /\ since c h k /\ n <= k + arrivals [e] /\ gate_open g' = default_open c.
Proof.
  intros M c h e g g' A S O.
  assert (R : forall x : gate M, gate_open x = gate_open g -> g' = revert c x -> msgs x = msgs g + arrivals [e] ->
     exists n k, default_after c = Some n /\ since c h k /\ n <= k + arrivals [e] /\ gate_open g' = default_open c).
  { intros x Ox -> Ex. unfold revert in *. destruct (default_after c) as [n|]; [|congruence].
    destruct (negb (Bool.eqb (gate_open x) (default_open c)) && (n <=? msgs x)) eqn:K; [|congruence]. exists n, (msgs g).
    split; [reflexivity|]. split; [apply msgs_since; exact A|]. apply andb_true_iff in K. destruct K as [_ K]. apply Z.leb_le in K. split; [lia|apply set_gate_open]. }
  destruct e as [b|m|]; cbn [step] in S.
  - injection S as <-. left. rewrite set_gate_open. reflexivity.
  - right. destruct (publishing g); [discriminate|]. destruct (gate_open g) eqn:G.
    + injection S as <-. cbn in O. congruence.
    + injection S as <-. apply (R (Gate false (msgs g + 1) (sent g) false)); reflexivity.
  - right. destruct (publishing g); [|discriminate]. injection S as <-. apply (R (Gate (gate_open g) (msgs g) (sent g) false)); try reflexivity. cbn. lia.
Qed.
Print Assumptions C50_changes_only_by_command_or_count.

Fixpoint run {M} (c : settings) (h : list (event M)) : option (gate M) :=
  match h with [] => Some (initialize c) | e :: h => match run c h with Some g => step c g e | None => None end end.

Lemma run_after {M} c (h : list (event M)) : forall g, run c h = Some g -> after c h g.
Proof.
  induction h as [|e h IH]; intros g E; cbn [run] in E; [injection E as <-; constructor|].
  destruct (run c h) as [g0|]; [|discriminate]. eapply after_event; [apply IH; reflexivity|exact E].
Qed.

(** A gate that is to let three messages through, twice opened. *)
Notation three := (Settings false false (Some 3)).

Example C50_case :
  exists g, after three [Published; Arrive 5%nat; Command true; Arrive 4%nat; Published; Arrive 3%nat; Published; Arrive 2%nat; Published; Arrive 1%nat; Command true; Arrive 0%nat] g /\
    sent g = [5; 3; 2; 1]%nat /\ gate_open g = true /\ publishing g = false /\
    since three [Published; Arrive 3%nat; Published; Arrive 2%nat; Published; Arrive 1%nat; Command true; Arrive 0%nat] 0 /\
    exists g', after three [Arrive 3%nat; Published; Arrive 2%nat; Published; Arrive 1%nat; Command true; Arrive 0%nat] g' /\ gate_open g' <> gate_open (set_gate false g').
Proof.
  eexists. split; [apply run_after; reflexivity|]. split; [reflexivity|]. split; [reflexivity|]. split; [reflexivity|].
  assert (A : exists g', after three [Arrive 3%nat; Published; Arrive 2%nat; Published; Arrive 1%nat; Command true; Arrive 0%nat] g' /\ gate_open g' = true /\ step three g' Published = Some (Gate false 0 [3; 2; 1]%nat false)).
  { eexists. split; [apply run_after; reflexivity|]. split; reflexivity. }
  destruct A as (g' & A & O & S). split; [eapply since_change; [exact A|exact S|rewrite O; discriminate]|].
  exists g'. split; [exact A|]. rewrite set_gate_open, O. discriminate.
Qed.

(** The hypotheses of [C50_default_state_after_n_messages]: a closed gate that has dropped two
    messages. *)
Example C50_case_default :
  exists g, after (Settings false false (Some 2)) [Arrive 3%nat; Arrive 2%nat] g /\ publishing g = false /\
    since (Settings false false (Some 2)) [Arrive 3%nat; Arrive 2%nat] 2.
Proof.
  exists (Gate false 2 [] false).
  assert (A : after (Settings false false (Some 2)) [Arrive 3%nat; Arrive 2%nat] (Gate false 2 [] false)) by (apply run_after; reflexivity).
  split; [exact A|]. split; [reflexivity|]. exact (msgs_since _ _ _ A).
Qed.

(** C50 finding: "after 0 messages" the gate is not in its default state: the first message after
    each change still passes. *)
Theorem C50_after_zero_messages_refuted :
  exists c (h : list (event nat)) g, default_after c = Some 0 /\ default_open c = false /\ after c h g /\ publishing g = false /\
    since c h 0 /\ gate_open g = true /\ forall m, exists g', step c g (Arrive m) = Some g' /\ sent g' = m :: sent g.
Proof.
  exists (Settings true false (Some 0)), [], (Gate true 0 [] false). split; [reflexivity|]. split; [reflexivity|]. split; [apply after_start|].
  split; [reflexivity|]. split; [constructor|]. split; [reflexivity|]. intros m. eexists. split; reflexivity.
Qed.
Print Assumptions C50_after_zero_messages_refuted.


(** Messages handled one after the other, with no command in between. *)
Inductive handled {M} (c : settings) : gate M -> list M -> gate M -> Prop :=
| handled_none g : handled c g [] g
| handled_closed g m g1 ms g' : step c g (Arrive m) = Some g1 -> publishing g1 = false -> handled c g1 ms g' -> handled c g (m :: ms) g'
| handled_open g m g1 g2 ms g' : step c g (Arrive m) = Some g1 -> step c g1 Published = Some g2 -> handled c g2 ms g' -> handled c g (m :: ms) g'.

Lemma handled_default {M} c (g : gate M) ms g' : handled c g ms g' -> gate_open g = default_open c -> publishing g = false ->
  sent g' = (if default_open c then rev ms else []) ++ sent g.
Proof.
  assert (R : forall x : gate M, gate_open x = default_open c -> revert c x = x).
  { intros x E. unfold revert. rewrite E, eqb_reflx. destruct (default_after c); reflexivity. }
  induction 1 as [g|g m g1 ms g' S P H IH|g m g1 g2 ms g' S S2 H IH]; intros O Q.
  - destruct (default_open c); reflexivity.
  - cbn [step] in S. rewrite Q in S. destruct (gate_open g) eqn:G; injection S as <-; [discriminate P|]. rewrite R in * by exact O.
    rewrite IH; [|exact O|reflexivity]. rewrite <- O. reflexivity.
  - cbn [step] in S. rewrite Q in S. destruct (gate_open g) eqn:G.
    + injection S as <-. cbn [step publishing] in S2. injection S2 as <-. rewrite R in * by exact O.
      rewrite IH; [|exact O|reflexivity]. rewrite <- O. cbn [rev sent]. rewrite <- app_assoc. reflexivity.
    + injection S as <-. rewrite R in S2 by exact O. discriminate S2.
Qed.

(** C50.  Of messages that come without a command in between, a gate that closes by default after
    n passes exactly as many as are missing to n since it was opened. *)
Theorem C50_open_gate_passes_the_first_n :
  forall M (c : settings) n (h : list (event M)) g k ms g',
    default_after c = Some n -> 0 < n -> default_open c = false ->
    after c h g -> publishing g = false -> gate_open g = true -> since c h k ->
    handled c g ms g' ->
    sent g' = rev (firstn (Z.to_nat (n - k)) ms) ++ sent g.
Proof.
  intros M c n h g k ms g' N Pn D A P O S H.
  assert (L : k < n) by (destruct (Z_lt_le_dec k n) as [L|L]; [exact L|]; pose proof (C50_default_state_after_n_messages M c n h g k N Pn A P S L); congruence).
  revert h k A P O S L. induction H as [g|g m g1 ms g' S1 P1 H IH|g m g1 g2 ms g' S1 S2 H IH]; intros h k A P O S L.
  - rewrite firstn_nil. reflexivity.
  - cbn [step] in S1. rewrite P, O in S1. injection S1 as <-. discriminate P1.
  - pose proof (after_event _ _ _ _ _ A S1) as A1. pose proof (after_event _ _ _ _ _ A1 S2) as A2.
    pose proof S1 as E1. cbn [step] in E1. rewrite P, O in E1. injection E1 as <-.
    pose proof S2 as E2. cbn [step publishing gate_open msgs sent] in E2. injection E2 as <-.
    assert (S' : since c (Arrive m :: h) (k + 1)) by (change 1 with (arrivals [Arrive m]); eapply since_same; [exact A|exact S1|exact O|exact S]).
    assert (Q : publishing (revert c (Gate true (msgs g + 1) (m :: sent g) false)) = false) by (rewrite (proj2 (revert_same _ _)); reflexivity).
    assert (Sn : sent (revert c (Gate true (msgs g + 1) (m :: sent g) false)) = m :: sent g) by (rewrite (proj1 (revert_same _ _)); reflexivity).
    replace (Z.to_nat (n - k)) with (Datatypes.S (Z.to_nat (n - k - 1))) by lia. cbn [firstn rev]. rewrite <- app_assoc. cbn [app].
    destruct (gate_open (revert c (Gate true (msgs g + 1) (m :: sent g) false))) eqn:G.
    + assert (S'' : since c (Published :: Arrive m :: h) (k + 1)).
      { replace (k + 1) with (k + 1 + arrivals [@Published M]) by (cbn; lia). eapply since_same; [exact A1|exact S2| |exact S']. cbn [gate_open]. rewrite G. reflexivity. }
      assert (L' : k + 1 < n).
      { destruct (Z_lt_le_dec (k + 1) n) as [L'|L']; [exact L'|]. pose proof (C50_default_state_after_n_messages M c n _ _ (k + 1) N Pn A2 Q S'' L'). congruence. }
      rewrite (IH _ _ A2 Q eq_refl S'' L'). rewrite Sn. replace (n - (k + 1)) with (n - k - 1) by lia. reflexivity.
    + rewrite (handled_default _ _ _ _ H); [|rewrite G, D; reflexivity|exact Q]. rewrite D, Sn. cbn [app].
      (* closed by the count, which therefore was complete *)
      assert (K : n <= k + 1).
      { destruct (C50_changes_only_by_command_or_count M c _ _ _ _ A1 S2) as [F|(n' & k' & N' & Sk & Lk & _)].
        - cbn [gate_open]. rewrite G. discriminate.
        - discriminate.
        - assert (n' = n) as -> by congruence. pose proof (msgs_since _ _ _ A1) as M1. cbn [arrivals filter length] in Lk.
          assert (k' = k + 1); [|cbn in Lk; lia]. clear -Sk S'. revert k' Sk. generalize dependent (k + 1). generalize (Arrive m :: h). intros hh z Z. induction Z as [|h0 e g0 g1 A0 St O0|h0 e g0 g1 k0 A0 St O0 S0 IH]; intros k' Sk.
          + inversion Sk; reflexivity.
          + inversion Sk; subst; [reflexivity|]. match goal with X : after c h0 ?a, Y : after c h0 ?b |- _ => pose proof (after_fun _ _ _ _ X Y); subst end. congruence.
          + inversion Sk; subst.
            * match goal with X : after c h0 ?a, Y : after c h0 ?b |- _ => pose proof (after_fun _ _ _ _ X Y); subst end. congruence.
            * match goal with Z : since c h0 ?q |- _ => rewrite (IH q) by assumption end. reflexivity. }
      replace (Z.to_nat (n - k - 1)) with 0%nat by lia. reflexivity.
Qed.
Print Assumptions C50_open_gate_passes_the_first_n.

Example C50_case_first_n :
  exists g g', after three [Command true] g /\ publishing g = false /\ gate_open g = true /\ since three [@Command nat true] 0 /\
    handled three g [1; 2; 3; 4]%nat g' /\ sent g' = [3; 2; 1]%nat.
Proof.
  exists (Gate true 0 [] false), (Gate false 1 [3; 2; 1]%nat false).
  assert (A : after three [@Command nat true] (Gate true 0 [] false)) by (apply run_after; reflexivity).
  split; [exact A|]. split; [reflexivity|]. split; [reflexivity|]. split; [exact (msgs_since _ _ _ A)|]. split; [|reflexivity].
  do 3 (eapply handled_open; [reflexivity|reflexivity|]). eapply handled_closed; [reflexivity|reflexivity|]. constructor.
Qed.
