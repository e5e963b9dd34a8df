(* The invariants of leaving an event loop. *)

From Coq Require Import List Arith Bool Lia.
From Verif Require Import LoopExitModel LoopExitSpec.
Import ListNotations.

Section Proofs.
Context (strict : bool) (timeout : nat).
Notation step := (step strict timeout).
Notation run := (run strict timeout).

Lemma nth_set_same {A} i (x : A) l y : nth_error l i = Some y -> nth_error (set_nth i x l) i = Some x.
Proof. revert i. induction l as [|z l IH]; intros [|i]; cbn; try discriminate; auto. Qed.
Lemma nth_set_other {A} i j (x : A) l : i <> j -> nth_error (set_nth i x l) j = nth_error l j.
Proof. revert i j. induction l as [|z l IH]; intros [|i] [|j]; cbn; auto; try congruence. Qed.

Lemma living_spec l : forall k i, In i (living k l) <-> exists t, k <= i /\ nth_error l (i - k) = Some t /\ alive t = true.
Proof.
  induction l as [|t l IH]; intros k i; cbn [living].
  - split; [intros []|]. intros (t & _ & H & _). destruct (i - k); discriminate.
  - assert (TL : In i (living (S k) l) <-> exists t', k <= i /\ i <> k /\ nth_error (t :: l) (i - k) = Some t' /\ alive t' = true).
    { rewrite IH. split; intros (t' & A).
      - destruct A as (A & B & C). exists t'. repeat split; auto; [lia|lia|]. replace (i - k) with (S (i - S k)) by lia. exact B.
      - destruct A as (A & N & B & C). exists t'. split; [lia|]. split; [|exact C]. replace (i - k) with (S (i - S k)) in B by lia. exact B. }
    destruct (alive t) eqn:AL; cbn [In]; rewrite TL; clear TL.
    + split.
      * intros [<-|(t' & A & N & B & C)]; [exists t; rewrite Nat.sub_diag; auto|eauto].
      * intros (t' & A & B & C). destruct (Nat.eq_dec k i); [auto|right; eauto].
    + split; intros (t' & A); [exists t'; tauto|]. destruct A as (A & B & C). exists t'. repeat split; auto. intros ->. rewrite Nat.sub_diag in B. cbn in B. congruence.
Qed.
Lemma living_alive s i : In i (living 0 (tasks s)) <-> alive_at s i.
Proof. rewrite living_spec. unfold alive_at. rewrite Nat.sub_0_r. split; intros (t & A); exists t; intuition lia. Qed.
Lemma living_NoDup l : forall k, NoDup (living k l).
Proof.
  induction l as [|t l IH]; intros k; cbn [living]; [constructor|]. destruct (alive t); [|apply IH]. constructor; [|apply IH].
  rewrite living_spec. intros (t' & A & _). lia.
Qed.

Lemma is_alive_spec s i : is_alive s i = true <-> alive_at s i.
Proof.
  unfold is_alive, alive_at. destruct (nth_error (tasks s) i) as [t|]; [|split; [discriminate|intros (t & H & _); discriminate]].
  split; [eauto|]. intros (t' & [= <-] & H). exact H.
Qed.

Lemma ask_all_nth l i : nth_error (ask_all l) i = match nth_error l i with Some t => Some (if alive t then mkTask true true else t) | None => None end.
Proof. unfold ask_all. rewrite nth_error_map. destruct (nth_error l i); reflexivity. Qed.

Lemma alive_or_done s i t : nth_error (tasks s) i = Some t -> alive_at s i \/ done_at s i.
Proof. intros H. destruct (alive t) eqn:A; [left|right]; exists t; auto. Qed.

(** ** Invariants *)

(** [q] has all tasks of [ids] that are alive, and only tasks of [ids]. *)
Definition rest (s : st) (ids q : list nat) : Prop := incl q ids /\ NoDup q /\ forall i, In i ids -> alive_at s i -> In i q.

Definition early (s : st) : Prop :=
  (canc s = KNo \/ canc s = KSent) /\ (forall i, ~ asked_at s i) /\ (forall r, result s = Some r -> forced_interrupt r = true).

Record caught (ids : list nat) (s : st) : Prop := {
  c_asked : forall i, asked_at s i <-> In i ids;
  c_nodup : NoDup ids;
  c_canc : (exists d, canc s = KWait ids d /\ d <= now s + timeout) \/ (exists q, canc s = KDone (length ids) (length q) /\ rest s ids q);
  c_result : forall r, result s = Some r -> forced_interrupt r = false -> cancelled_tasks r = length ids /\ exists q, pending_tasks r = length q /\ rest s ids q
}.

Definition linv (s : st) : Prop := early s \/ exists ids, caught ids s.

(** Nothing changes but the tasks, and these only get fewer. *)
Lemma caught_mono ids s s' : caught ids s -> canc s' = canc s -> now s <= now s' -> result s' = result s -> (forall i, asked_at s' i <-> asked_at s i) ->
  (forall i, asked_at s i -> alive_at s' i -> alive_at s i) -> caught ids s'.
Proof.
  intros [A B C D] K N R AS AL.
  assert (RE : forall q, rest s ids q -> rest s' ids q). { intros q (H1 & H2 & H3). split; [exact H1|]. split; [exact H2|]. intros i I1 I2. apply H3; [exact I1|]. apply AL; [|exact I2]. apply A, I1. }
  constructor; auto.
  - intros i. rewrite AS. apply A.
  - rewrite K. destruct C as [(d & C1 & C2)|(q & C1 & C2)]; [left; exists d; split; [exact C1|lia]|right; exists q; auto].
  - rewrite R. intros r R1 R2. destruct (D r R1 R2) as (D1 & q & D2 & D3). split; [exact D1|]. exists q. auto.
Qed.

Lemma early_mono s s' : early s -> canc s' = canc s -> result s' = result s -> (forall i, asked_at s' i <-> asked_at s i) -> early s'.
Proof. intros (A & B & C) K R AS. split; [rewrite K; exact A|]. split; [intros i; rewrite AS; apply B|rewrite R; exact C]. Qed.

Lemma linv_mono s s' : linv s -> canc s' = canc s -> now s <= now s' -> result s' = result s -> (forall i, asked_at s' i <-> asked_at s i) ->
  (forall i, asked_at s i -> alive_at s' i -> alive_at s i) -> linv s'.
Proof. intros [E|(ids & C)] K N R AS AL; [left; eapply early_mono; eauto|right; exists ids; eapply caught_mono; eauto]. Qed.

Lemma asked_ext s s' : tasks s' = tasks s -> (forall i, asked_at s' i <-> asked_at s i).
Proof. unfold asked_at. intros ->. reflexivity. Qed.
Lemma alive_ext s s' : tasks s' = tasks s -> (forall i, alive_at s' i <-> alive_at s i).
Proof. unfold alive_at. intros ->. reflexivity. Qed.

Lemma nth_snoc {A} (l : list A) x i : nth_error (l ++ [x]) i = if i =? length l then Some x else nth_error l i.
Proof.
  destruct (Nat.eqb_spec i (length l)) as [->|N]; [rewrite nth_error_app2, Nat.sub_diag by lia; reflexivity|].
  destruct (lt_dec i (length l)); [apply nth_error_app1; lia|]. rewrite nth_error_app2 by lia. destruct (i - length l) eqn:E; [lia|]. cbn. rewrite (proj2 (nth_error_None l i)) by lia. now destruct n0.
Qed.

(** What [Cancel] does. *)
Lemma cancel_caught s s' : (forall i, ~ asked_at s i) -> (forall r, result s = Some r -> forced_interrupt r = true) ->
  s' = cancel timeout s -> caught (living 0 (tasks s)) s'.
Proof.
  intros NA RF ->. unfold cancel. destruct (living 0 (tasks s)) as [|i0 ids] eqn:L.
  - constructor.
    + intros i. split; [intros H; destruct (NA i H)|intros []].
    + constructor.
    + right. exists []. split; [reflexivity|]. split; [intros i []|]. split; [constructor|intros i []].
    + cbn. intros r R1 R2. rewrite (RF r R1) in R2. discriminate.
  - rewrite <- L. constructor.
    + intros i. rewrite living_alive. unfold asked_at, alive_at. cbn [set_canc set_tasks tasks]. rewrite ask_all_nth. destruct (nth_error (tasks s) i) as [t|] eqn:X.
      * split.
        -- intros (t' & [= <-] & H). exists t. split; [reflexivity|]. destruct (alive t) eqn:AL; [reflexivity|]. destruct (NA i). exists t. auto.
        -- intros (t' & [= <-] & H). rewrite H. eauto.
      * split; intros (t' & H & _); discriminate.
    + apply living_NoDup.
    + left. exists (now s + timeout). split; [reflexivity|cbn; lia].
    + cbn. intros r R1 R2. rewrite (RF r R1) in R2. discriminate.
Qed.


(** ** Who is where *)
Record ctl (s : st) : Prop := {
  k_run : mpc s = MRun -> canc s = KNo /\ result s = None /\ suppressing s = false;
  k_await : mpc s = MAwait -> canc s <> KNo /\ result s = None /\ suppressing s = true;
  k_stop : mpc s = MStop \/ mpc s = MClosed -> strict = true \/ result s <> None;
  k_closed : mpc s = MClosed -> running s = false;
  k_off : running s = false -> busy s = None /\ (mpc s = MStop \/ mpc s = MClosed);
  k_strict : strict = true -> canc s = KNo /\ suppressing s = false /\ result s = None
}.

Lemma ctl_init : ctl init.
Proof. constructor; cbn; auto; try discriminate. intros [?|?]; discriminate. Qed.

Lemma step_ctl s a s' : ctl s -> step s a = Some s' -> ctl s'.
Proof.
  intros [A B C D E F] ST.
  assert (KEEP : forall s', mpc s' = mpc s -> canc s' = canc s -> result s' = result s -> suppressing s' = suppressing s -> running s' = running s -> (running s = false -> busy s' = None) -> ctl s').
  { intros t H1 H2 H3 H4 H5 H6. constructor; rewrite ?H1, ?H2, ?H3, ?H4, ?H5; auto. intros R. split; [auto|]. apply E, R. }
  destruct a as [| |i|i|i| | | | | | | | | |j|j|j|j]; cbn [LoopExitModel.step] in ST.
  - injection ST as <-. apply KEEP; auto. apply E.
  - destruct (running s) eqn:R; [|discriminate]. injection ST as <-. apply KEEP; auto. discriminate.
  - destruct (nth_error (tasks s) i) as [t|]; [|discriminate]. destruct (free s && alive t); [|discriminate]. injection ST as <-. apply KEEP; auto. apply E.
  - unfold free in ST. destruct (running s) eqn:R; [|discriminate]. destruct ((true && _) && is_alive s i); [|discriminate]. injection ST as <-. apply KEEP; auto. discriminate.
  - destruct (busy s) as [b|] eqn:BU; [|discriminate]. destruct (i =? b); [|discriminate]. injection ST as <-. apply KEEP; auto.
  - destruct (running s) eqn:R; [|discriminate]. injection ST as <-. unfold error. destruct (suppressing s) eqn:SU; apply KEEP; cbn; auto; discriminate.
  - destruct (mpc s) eqn:M; try discriminate. injection ST as <-. destruct (A eq_refl) as (A1 & A2 & A3). unfold leave. destruct strict eqn:SS.
    + constructor; cbn; auto; try discriminate. intros R. destruct (E R) as (E1 & [E2|E2]); discriminate.
    + constructor; cbn; try discriminate; try (intros [?|?]; discriminate).
      * intros _. repeat split; auto; discriminate.
      * intros R. destruct (E R) as (E1 & [E2|E2]); discriminate.
      * congruence.
  - destruct (mpc s) eqn:M; try discriminate. destruct (canc s) eqn:K; try discriminate. injection ST as <-. constructor; cbn; try discriminate; auto.
    + intros _. right. discriminate.
    + intros R. split; [apply E, R|auto].
    + intros SS. destruct (F SS) as (Z & _). discriminate.
  - destruct (mpc s) eqn:M; try discriminate. injection ST as <-. destruct (B eq_refl) as (B1 & B2 & B3). constructor; cbn; try discriminate; auto.
    + intros _. right. discriminate.
    + intros R. split; [apply E, R|auto].
    + intros SS. destruct (F SS) as (Z & _). congruence.
  - destruct (mpc s) eqn:M; try discriminate. destruct (running s) eqn:R; [discriminate|]. injection ST as <-. constructor; cbn; try discriminate; auto. intros _. split; [apply E; reflexivity|auto].
  - destruct (canc s) eqn:K; try discriminate. unfold free in ST. destruct (running s) eqn:R; [|discriminate]. destruct (busy s) eqn:BU; [discriminate|]. injection ST as <-.
    assert (Z : mpc (cancel timeout s) = mpc s /\ result (cancel timeout s) = result s /\ suppressing (cancel timeout s) = suppressing s /\ running (cancel timeout s) = true /\ canc (cancel timeout s) <> KNo).
    { unfold cancel. destruct (living 0 (tasks s)); cbn; repeat split; auto; discriminate. }
    destruct Z as (Z1 & Z2 & Z3 & Z4 & Z5). constructor; rewrite ?Z1, ?Z2, ?Z3, ?Z4; auto; try discriminate.
    + intros M. destruct (A M) as (Z & _). discriminate.
    + intros M. destruct (B M) as (_ & B2). auto.
    + intros SS. destruct (F SS) as (Z & _). discriminate.
  - destruct (canc s) as [| |ids d|] eqn:K; try discriminate. match type of ST with (if ?c then _ else _) = _ => destruct c end; [|discriminate]. injection ST as <-. constructor; cbn; auto.
    + intros M. destruct (A M) as (Z & _). discriminate.
    + intros M. destruct (B M) as (_ & B2). split; [discriminate|exact B2].
    + intros SS. destruct (F SS) as (Z & _). discriminate.
  - destruct (mpc s) eqn:M; try discriminate. unfold free in ST. destruct (running s) eqn:R; [|discriminate]. destruct (busy s) eqn:BU; [discriminate|]. injection ST as <-. constructor; cbn; auto; try discriminate.
  - injection ST as <-. apply KEEP; auto. apply E.
  - destruct (nth_error (jobs s) j) as [[f [] x p]|]; try discriminate. injection ST as <-. apply KEEP; auto. apply E.
  - destruct (nth_error (jobs s) j) as [[[] [] x p]|]; try discriminate; injection ST as <-; apply KEEP; auto; apply E.
  - destruct (nth_error (jobs s) j) as [[[] g x p]|]; try discriminate. injection ST as <-. apply KEEP; auto. apply E.
  - destruct (nth_error (jobs s) j) as [[[] g [] p]|]; try discriminate. injection ST as <-. apply KEEP; auto. apply E.
Qed.

Lemma run_ctl l : forall s s', ctl s -> run s l = Some s' -> ctl s'.
Proof.
  induction l as [|a l IH]; intros s s' C R; cbn [LoopExitModel.run] in R; [now injection R as <-|]. destruct (step s a) as [s1|] eqn:SS; [|discriminate]. eapply IH; [eapply step_ctl; eauto|exact R].
Qed.

(** A step other than [Cancel] keeps those who were caught; before it nobody is. *)
Lemma step_inv s a s' : ctl s -> step s a = Some s' ->
  (a <> Cancel -> (early s -> early s') /\ (forall ids, caught ids s -> caught ids s')) /\
  (a = Cancel -> early s -> caught (living 0 (tasks s)) s').
Proof.
  intros CT ST.
  assert (KEEP : forall s', canc s' = canc s -> now s <= now s' -> result s' = result s -> tasks s' = tasks s -> (early s -> early s') /\ (forall ids, caught ids s -> caught ids s')).
  { intros t A B C D. split; [intros EA; eapply early_mono; eauto; now apply asked_ext|]. intros ids CA. eapply caught_mono; eauto; [now apply asked_ext|]. intros i _. apply alive_ext. symmetry. exact D. }
  split.
  2: { intros -> (K & NA & RF). cbn [LoopExitModel.step] in ST. destruct (canc s); try discriminate. destruct (free s); [|discriminate]. injection ST as <-. apply cancel_caught; auto. }
  intros NC. destruct a as [| |i|i|i| | | | | | | | | |j|j|j|j]; cbn [LoopExitModel.step] in ST; try congruence.
  - injection ST as <-. apply KEEP; cbn; auto.
  - destruct (running s); [|discriminate]. injection ST as <-.
    assert (AS : forall i, asked_at (set_tasks s (tasks s ++ [mkTask true false]) (busy s)) i <-> asked_at s i).
    { intros i. unfold asked_at. cbn [set_tasks tasks]. rewrite nth_snoc. destruct (Nat.eqb_spec i (length (tasks s))) as [->|N]; [|reflexivity].
      rewrite (proj2 (nth_error_None (tasks s) (length (tasks s)))) by lia. split; [intros (t & [= <-] & H); discriminate|intros (t & H & _); discriminate]. }
    split; [intros EA; eapply early_mono; eauto|]. intros ids CA. eapply caught_mono; eauto.
    intros i (t & H & _). unfold alive_at. cbn [set_tasks tasks]. rewrite nth_snoc. destruct (Nat.eqb_spec i (length (tasks s))) as [->|N]; [|auto].
    rewrite (proj2 (nth_error_None (tasks s) (length (tasks s)))) in H by lia. discriminate.
  - destruct (nth_error (tasks s) i) as [t|] eqn:X; [|discriminate]. destruct (free s && alive t); [|discriminate]. injection ST as <-.
    assert (AS : forall k, asked_at (set_tasks s (set_nth i (mkTask false (asked t)) (tasks s)) (busy s)) k <-> asked_at s k).
    { intros k. unfold asked_at. cbn [set_tasks tasks]. destruct (Nat.eq_dec i k) as [<-|N]; [|rewrite nth_set_other by exact N; reflexivity].
      rewrite (nth_set_same _ _ _ _ X), X. split; intros (t' & [= <-] & H); eauto. }
    split; [intros EA; eapply early_mono; eauto|]. intros ids CA. eapply caught_mono; eauto.
    intros k _. unfold alive_at. cbn [set_tasks tasks]. destruct (Nat.eq_dec i k) as [<-|N]; [|rewrite nth_set_other by exact N; auto].
    rewrite (nth_set_same _ _ _ _ X). intros (t' & [= <-] & H). discriminate.
  - destruct (free s && is_alive s i); [|discriminate]. injection ST as <-. apply KEEP; auto.
  - destruct (busy s); [|discriminate]. destruct (i =? n); [|discriminate]. injection ST as <-. apply KEEP; auto.
  - destruct (running s); [|discriminate]. injection ST as <-. unfold error. destruct (suppressing s); apply KEEP; auto.
  - destruct (mpc s) eqn:M; try discriminate. injection ST as <-. destruct (k_run _ CT M) as (K & RN & _). unfold leave. destruct strict; [apply KEEP; auto|].
    split; [intros (A & B & C); split; [auto|]; split; [exact B|exact C]|]. intros ids CA. destruct (c_canc _ _ CA) as [(d & Z & _)|(q & Z & _)]; congruence.
  - destruct (mpc s) eqn:M; try discriminate. destruct (canc s) as [| | |c p] eqn:K; try discriminate. injection ST as <-. split; [intros ([Z|Z] & _); congruence|].
    intros ids [A B C D]. destruct C as [(d & Z & _)|(q & Z & RE)]; [congruence|]. assert (c = length ids /\ p = length q) as (-> & ->) by (split; congruence).
    constructor; auto; [right; exists q; cbn; auto|]. intros r [= <-] _. cbn. split; [reflexivity|]. exists q. auto.
  - destruct (mpc s) eqn:M; try discriminate. injection ST as <-. split; [intros (A & B & C); split; [exact A|]; split; [exact B|]; intros r [= <-]; reflexivity|].
    intros ids [A B C D]. constructor; auto. intros r [= <-] Z. discriminate.
  - destruct (mpc s) eqn:M; try discriminate. destruct (running s); [discriminate|]. injection ST as <-. apply KEEP; auto.
  - destruct (canc s) as [| |is0 d|] eqn:K; try discriminate. destruct (free s && _); [|discriminate]. injection ST as <-. split; [intros ([Z|Z] & _); congruence|].
    intros ids [A B C D]. destruct C as [(d' & Z & _)|(q & Z & RE)]; [|congruence]. assert (is0 = ids) by congruence. subst is0.
    constructor; auto. right. exists (filter (is_alive s) ids). split; [reflexivity|]. split; [intros i H; apply filter_In in H; tauto|]. split; [now apply NoDup_filter|].
    intros i H1 H2. apply filter_In. split; [exact H1|]. apply is_alive_spec. exact H2.
  - destruct (mpc s) eqn:M; try discriminate. destruct (free s); [|discriminate]. injection ST as <-. apply KEEP; auto.
  - injection ST as <-. apply KEEP; auto.
  - destruct (nth_error (jobs s) j) as [[f [] x p]|]; try discriminate. injection ST as <-. apply KEEP; auto.
  - destruct (nth_error (jobs s) j) as [[[] [] x p]|]; try discriminate; injection ST as <-; apply KEEP; auto.
  - destruct (nth_error (jobs s) j) as [[[] g x p]|]; try discriminate. injection ST as <-. apply KEEP; auto.
  - destruct (nth_error (jobs s) j) as [[[] g [] p]|]; try discriminate. injection ST as <-. apply KEEP; auto.
Qed.

Lemma early_init : early init.
Proof. split; [auto|]. split; [intros i (t & H & _); destruct i; discriminate|discriminate]. Qed.

(** Once caught there is no second [Cancel]. *)
Lemma caught_step ids s a s' : ctl s -> caught ids s -> step s a = Some s' -> a <> Cancel /\ caught ids s'.
Proof.
  intros CT CA ST. assert (NC : a <> Cancel). { intros ->. cbn in ST. destruct (c_canc _ _ CA) as [(d & Z & _)|(q & Z & _)]; rewrite Z in ST; discriminate. }
  split; [exact NC|]. apply (proj1 (step_inv _ _ _ CT ST) NC). exact CA.
Qed.
Lemma caught_run ids l : forall s s', ctl s -> caught ids s -> run s l = Some s' -> caught ids s'.
Proof.
  induction l as [|a l IH]; intros s s' CT CA R; cbn [LoopExitModel.run] in R; [now injection R as <-|]. destruct (step s a) as [s1|] eqn:SS; [|discriminate].
  eapply IH; [eapply step_ctl; eauto|eapply caught_step; eauto|exact R].
Qed.

Lemma run_linv l : forall s s', ctl s -> linv s -> run s l = Some s' -> linv s'.
Proof.
  induction l as [|a l IH]; intros s s' CT I R; cbn [LoopExitModel.run] in R; [now injection R as <-|]. destruct (step s a) as [s1|] eqn:SS; [|discriminate].
  apply (IH s1); [eapply step_ctl; eauto| |exact R]. destruct (step_inv _ _ _ CT SS) as (A & B). destruct I as [EA|(ids & CA)].
  - assert (D : {a = Cancel} + {a <> Cancel}) by (destruct a; (left; reflexivity) || (right; discriminate)). destruct D as [->|D]; [right; eauto|left; apply (A D), EA].
  - right. exists ids. eapply caught_step; eauto.
Qed.

(** Before [Cancel]. *)
Lemma run_early l : forall s s', ctl s -> early s -> run s (l ++ [Cancel]) = Some s' -> exists s1, run s l = Some s1 /\ early s1 /\ ctl s1.
Proof.
  induction l as [|a l IH]; intros s s' CT EA R; cbn [app LoopExitModel.run] in R; [exists s; auto|]. destruct (step s a) as [s1|] eqn:SS; [|discriminate].
  assert (D : {a = Cancel} + {a <> Cancel}) by (destruct a; (left; reflexivity) || (right; discriminate)). destruct (step_inv _ _ _ CT SS) as (A & B). pose proof (step_ctl _ _ _ CT SS) as CT1. destruct D as [->|D].
  - exfalso. specialize (B eq_refl EA). clear -R B CT1. revert s1 CT1 B R. induction l as [|a l IH]; intros s1 CT1 B R; cbn [app LoopExitModel.run] in R.
    + destruct (step s1 Cancel) eqn:S1; [|discriminate]. destruct (caught_step _ _ _ _ CT1 B S1) as (Z & _). congruence.
    + destruct (step s1 a) as [s2|] eqn:S2; [|discriminate]. destruct (caught_step _ _ _ _ CT1 B S2) as (_ & B2). eapply IH; [eapply step_ctl; eauto|exact B2|exact R].
  - destruct (IH _ _ CT1 (proj1 (A D) EA) R) as (s2 & R2 & E2 & C2). exists s2. split; [|auto]. cbn [LoopExitModel.run]. rewrite SS. exact R2.
Qed.

Lemma run_app l1 l2 s : run s (l1 ++ l2) = match run s l1 with Some s1 => run s1 l2 | None => None end.
Proof. revert s. induction l1 as [|a l1 IH]; intros s; cbn; [reflexivity|]. destruct (step s a); auto. Qed.

Lemma at_cancel l1 s1 s2 : run init l1 = Some s1 -> step s1 Cancel = Some s2 -> ctl s2 /\ caught (living 0 (tasks s1)) s2.
Proof.
  intros R S2. pose proof (run_ctl _ _ _ ctl_init R) as CT. split; [eapply step_ctl; eauto|].
  destruct (run_early l1 init s2 ctl_init early_init) as (s1' & R1 & E1 & _); [rewrite run_app, R; cbn [LoopExitModel.run]; now rewrite S2|].
  assert (s1' = s1) by congruence. subst. now apply (proj2 (step_inv _ _ _ CT S2)).
Qed.

(** ** Progress *)

Lemma own_enabled s : ctl s -> linv s -> mpc s <> MRun -> mpc s <> MClosed -> busy s = None ->
  exists n a, n <= timeout /\ own a = true /\ exists s', run s (repeat Tick n ++ [a]) = Some s'.
Proof.
  intros CT I M1 M2 BU. destruct (mpc s) eqn:M; try congruence.
  - assert (RN : running s = true). { destruct (running s) eqn:R; [reflexivity|]. destruct (k_off _ CT R) as (_ & [Z|Z]); congruence. }
    destruct (k_await _ CT M) as (K & _). destruct (canc s) as [| |ids d|c p] eqn:KC; [congruence| | |].
    + exists 0, Cancel. split; [lia|]. split; [reflexivity|]. eexists. cbn. unfold free. rewrite KC, RN, BU. reflexivity.
    + assert (D : d <= now s + timeout). { destruct I as [(Z & _)|(i' & CA)]; [destruct Z; congruence|]. destruct (c_canc _ _ CA) as [(d' & Z & D)|(q & Z & _)]; congruence. }
      assert (TK : forall n t, canc t = KWait ids d -> running t = true -> busy t = None -> d <= now t + n -> exists s', run t (repeat Tick n ++ [Wake]) = Some s').
      { induction n as [|n IH]; intros t T1 T2 T3 T4; cbn [repeat app LoopExitModel.run LoopExitModel.step].
        - rewrite T1. unfold free. rewrite T2, T3. rewrite Nat.add_0_r in T4. apply Nat.leb_le in T4. rewrite T4, orb_true_r. cbn. eauto.
        - apply IH; cbn; auto. lia. }
      exists timeout, Wake. split; [lia|]. split; [reflexivity|]. apply TK; auto.
    + exists 0, Result. split; [lia|]. split; [reflexivity|]. eexists. cbn. rewrite M, KC. reflexivity.
  - destruct (running s) eqn:R.
    + exists 0, StopLoop. split; [lia|]. split; [reflexivity|]. eexists. cbn. unfold free. rewrite M, R, BU. reflexivity.
    + exists 0, Join. split; [lia|]. split; [reflexivity|]. eexists. cbn. rewrite M, R. reflexivity.
Qed.

(** How many of its own moves are left. *)
Definition left_ (s : st) : nat :=
  match mpc s with MRun => 3 | MAwait => 3 | MStop => if running s then 2 else 1 | MClosed => 0 end +
  match canc s with KNo => if match mpc s with MRun => negb strict | _ => false end then 2 else 0 | KSent => 2 | KWait _ _ => 1 | KDone _ _ => 0 end.

Lemma step_left s a s' : ctl s -> step s a = Some s' -> (if own a then 1 else 0) + left_ s' <= left_ s.
Proof.
  intros CT ST.
  assert (KEEP : forall s', mpc s' = mpc s -> canc s' = canc s -> running s' = running s -> left_ s' <= left_ s) by (intros t A B C; unfold left_; rewrite A, B, C; lia).
  destruct a as [| |i|i|i| | | | | | | | | |j|j|j|j]; cbn [LoopExitModel.step own] in *.
  - injection ST as <-. apply KEEP; auto.
  - destruct (running s) eqn:RN; [|discriminate]. injection ST as <-. apply KEEP; auto.
  - destruct (nth_error (tasks s) i) as [t|] eqn:X; [|discriminate]. destruct (free s && alive t); [|discriminate]. injection ST as <-. apply KEEP; auto.
  - destruct (free s && is_alive s i); [|discriminate]. injection ST as <-. apply KEEP; auto.
  - destruct (busy s); [|discriminate]. destruct (i =? n); [|discriminate]. injection ST as <-. apply KEEP; auto.
  - destruct (running s) eqn:RN; [|discriminate]. injection ST as <-. unfold error. destruct (suppressing s); apply KEEP; auto.
  - destruct (mpc s) eqn:M; try discriminate. injection ST as <-. destruct (k_run _ CT M) as (K & _). unfold leave, left_. rewrite M, K. destruct strict; cbn; rewrite ?K; [destruct (running s)|]; cbn; lia.
  - destruct (mpc s) eqn:M; try discriminate. destruct (canc s) eqn:K; try discriminate. injection ST as <-. unfold left_, summarise. cbn. rewrite M, K. destruct (running s); lia.
  - destruct (mpc s) eqn:M; try discriminate. injection ST as <-. unfold left_, summarise. cbn. rewrite M. destruct (running s); lia.
  - destruct (mpc s) eqn:M; try discriminate. destruct (running s) eqn:R; [discriminate|]. injection ST as <-. unfold left_, set_main. cbn. rewrite M, R. lia.
  - destruct (canc s) eqn:K; try discriminate. destruct (free s); [|discriminate]. injection ST as <-. unfold left_, cancel. rewrite K. destruct (living 0 (tasks s)); cbn; lia.
  - destruct (canc s) as [| |ids d|] eqn:K; try discriminate. destruct (free s && _); [|discriminate]. injection ST as <-. unfold left_. rewrite K. cbn. lia.
  - destruct (mpc s) eqn:M; try discriminate. unfold free in ST. destruct (running s) eqn:R; [|discriminate]. destruct (busy s); [discriminate|]. injection ST as <-. unfold left_, set_main. cbn. rewrite M, R. lia.
  - injection ST as <-. apply KEEP; auto.
  - destruct (nth_error (jobs s) j) as [[f [] x p]|]; try discriminate. injection ST as <-. apply KEEP; auto.
  - destruct (nth_error (jobs s) j) as [[[] [] x p]|]; try discriminate; injection ST as <-; apply KEEP; auto.
  - destruct (nth_error (jobs s) j) as [[[] g x p]|]; try discriminate. injection ST as <-. apply KEEP; auto.
  - destruct (nth_error (jobs s) j) as [[[] g [] p]|]; try discriminate. injection ST as <-. apply KEEP; auto.
Qed.

Lemma run_left l : forall s s', ctl s -> run s l = Some s' -> how_many own l + left_ s' <= left_ s.
Proof.
  induction l as [|a l IH]; intros s s' CT R; cbn [LoopExitModel.run] in R; [injection R as <-; cbn; lia|]. destruct (step s a) as [s1|] eqn:SS; [|discriminate].
  pose proof (step_left _ _ _ CT SS). specialize (IH _ _ (step_ctl _ _ _ CT SS) R). unfold how_many in *. cbn [filter]. destruct (own a); cbn [length]; lia.
Qed.

(** ** Errors *)
Lemma step_errors s a s' : ctl s -> step s a = Some s' ->
  (suppressing s = true -> suppressing s' = true /\ suppressed s' = suppressed s + (if is_error a then 1 else 0) /\ shown s' = shown s) /\
  (suppressing s = false -> a <> Leave -> suppressing s' = false /\ suppressed s' = suppressed s /\ shown s' = shown s + (if is_error a then 1 else 0)) /\
  (a = Leave -> suppressing s = false /\ suppressing s' = negb strict /\ suppressed s' = suppressed s /\ shown s' = shown s).
Proof.
  intros CT ST.
  assert (KEEP : forall s', suppressing s' = suppressing s -> suppressed s' = suppressed s -> shown s' = shown s -> is_error a = false -> a <> Leave ->
    (suppressing s = true -> suppressing s' = true /\ suppressed s' = suppressed s + (if is_error a then 1 else 0) /\ shown s' = shown s) /\
    (suppressing s = false -> a <> Leave -> suppressing s' = false /\ suppressed s' = suppressed s /\ shown s' = shown s + (if is_error a then 1 else 0)) /\
    (a = Leave -> suppressing s = false /\ suppressing s' = negb strict /\ suppressed s' = suppressed s /\ shown s' = shown s)).
  { intros t A B C D E. rewrite A, B, C, D, !Nat.add_0_r. repeat split; auto; congruence. }
  destruct a as [| |i|i|i| | | | | | | | | |j|j|j|j]; cbn [LoopExitModel.step] in ST.
  - injection ST as <-. apply KEEP; auto; discriminate.
  - destruct (running s) eqn:RN; [|discriminate]. injection ST as <-. apply KEEP; auto; discriminate.
  - destruct (nth_error (tasks s) i) as [t|] eqn:X; [|discriminate]. destruct (free s && alive t); [|discriminate]. injection ST as <-. apply KEEP; auto; discriminate.
  - destruct (free s && is_alive s i); [|discriminate]. injection ST as <-. apply KEEP; auto; discriminate.
  - destruct (busy s); [|discriminate]. destruct (i =? n); [|discriminate]. injection ST as <-. apply KEEP; auto; discriminate.
  - destruct (running s) eqn:RN; [|discriminate]. injection ST as <-. unfold error. destruct (suppressing s) eqn:SU; cbn; repeat split; auto; try discriminate; lia.
  - destruct (mpc s) eqn:M; try discriminate. injection ST as <-. destruct (k_run _ CT M) as (_ & _ & Z). rewrite Z. unfold leave. destruct strict; cbn; repeat split; auto; congruence.
  - destruct (mpc s) eqn:M; try discriminate. destruct (canc s); try discriminate. injection ST as <-. apply KEEP; auto; discriminate.
  - destruct (mpc s) eqn:M; try discriminate. injection ST as <-. apply KEEP; auto; discriminate.
  - destruct (mpc s) eqn:M; try discriminate. destruct (running s); [discriminate|]. injection ST as <-. apply KEEP; auto; discriminate.
  - destruct (canc s); try discriminate. destruct (free s); [|discriminate]. injection ST as <-. unfold cancel. destruct (living 0 (tasks s)); apply KEEP; auto; discriminate.
  - destruct (canc s) as [| |ids d|] eqn:K; try discriminate. destruct (free s && _); [|discriminate]. injection ST as <-. apply KEEP; auto; discriminate.
  - destruct (mpc s) eqn:M; try discriminate. destruct (free s); [|discriminate]. injection ST as <-. apply KEEP; auto; discriminate.
  - injection ST as <-. apply KEEP; auto; discriminate.
  - destruct (nth_error (jobs s) j) as [[f [] x p]|]; try discriminate. injection ST as <-. apply KEEP; auto; discriminate.
  - destruct (nth_error (jobs s) j) as [[[] [] x p]|]; try discriminate; injection ST as <-; apply KEEP; auto; discriminate.
  - destruct (nth_error (jobs s) j) as [[[] g x p]|]; try discriminate. injection ST as <-. apply KEEP; auto; discriminate.
  - destruct (nth_error (jobs s) j) as [[[] g [] p]|]; try discriminate. injection ST as <-. apply KEEP; auto; discriminate.
Qed.

Lemma errors_before l : forall s s', ctl s -> suppressing s = false -> (strict = true \/ ~ In Leave l) -> run s l = Some s' ->
  suppressing s' = false /\ suppressed s' = suppressed s /\ shown s' = shown s + how_many is_error l.
Proof.
  induction l as [|a l IH]; intros s s' CT SU N R; cbn [LoopExitModel.run] in R; [injection R as <-; cbn; repeat split; auto; lia|]. destruct (step s a) as [s1|] eqn:SS; [|discriminate].
  destruct (step_errors _ _ _ CT SS) as (_ & A & B). assert (D : {a = Leave} + {a <> Leave}) by (destruct a; (left; reflexivity) || (right; discriminate)).
  assert (Z : suppressing s1 = false /\ suppressed s1 = suppressed s /\ shown s1 = shown s + (if is_error a then 1 else 0)).
  { destruct D as [->|D]; [|apply A; auto]. destruct (B eq_refl) as (_ & B1 & B2 & B3). cbn. destruct N as [->|N]; [cbn in B1; repeat split; auto; lia|destruct N; now left]. }
  destruct Z as (Z1 & Z2 & Z3). assert (N' : strict = true \/ ~ In Leave l) by (destruct N as [N|N]; [left; exact N|right; intros H; apply N; now right]).
  destruct (IH _ _ (step_ctl _ _ _ CT SS) Z1 N' R) as (Y1 & Y2 & Y3). repeat split; try congruence. rewrite Y3, Z3. unfold how_many. cbn [filter]. destruct (is_error a); cbn [length]; lia.
Qed.
Lemma errors_after l : forall s s', ctl s -> suppressing s = true -> run s l = Some s' -> suppressing s' = true /\ suppressed s' = suppressed s + how_many is_error l /\ shown s' = shown s.
Proof.
  induction l as [|a l IH]; intros s s' CT SU R; cbn [LoopExitModel.run] in R; [injection R as <-; cbn; repeat split; auto; lia|]. destruct (step s a) as [s1|] eqn:SS; [|discriminate].
  destruct (step_errors _ _ _ CT SS) as (A & _). destruct (A SU) as (A1 & A2 & A3). destruct (IH _ _ (step_ctl _ _ _ CT SS) A1 R) as (B1 & B2 & B3). repeat split; try congruence.
  rewrite B2, A2. unfold how_many. cbn [filter]. destruct (is_error a); cbn [length]; lia.
Qed.

(** ** The executor *)

(** What a job adds to the count. *)
Definition weight (x : job) : nat := match stg x with Accepted => 0 | _ => if paid x then 0 else 1 end.
Definition job_ok (x : job) : Prop :=
  (paid x = true -> finished x = true /\ stg x = Returned) /\ (attached x = true -> stg x = Returned /\ paid x = false) /\ (stg x = Returned -> attached x = false -> paid x = true).
Definition total (l : list job) : nat := fold_right (fun x n => weight x + n) 0 l.

Lemma total_app l1 l2 : total (l1 ++ l2) = total l1 + total l2.
Proof. unfold total. induction l1 as [|x l1 IH]; cbn [app fold_right]; [reflexivity|]. rewrite IH. lia. Qed.
Lemma total_set l : forall j x y, nth_error l j = Some x -> total (set_nth j y l) + weight x = total l + weight y.
Proof. unfold total. induction l as [|z l IH]; intros [|j] x y; cbn [nth_error set_nth fold_right]; try discriminate; [intros [= ->]; lia|]. intros H. specialize (IH _ _ y H). lia. Qed.
Arguments total : simpl never.
Lemma Forall_set {A} (P : A -> Prop) l : forall j y, Forall P l -> P y -> Forall P (set_nth j y l).
Proof. induction l as [|z l IH]; intros [|j] y F Y; cbn; auto; apply Forall_cons_iff in F; destruct F; constructor; auto. Qed.
Lemma Forall_nth {A} (P : A -> Prop) l j x : Forall P l -> nth_error l j = Some x -> P x.
Proof. intros F H. rewrite Forall_forall in F. apply F. eapply nth_error_In; eauto. Qed.

Definition jinv (s : st) : Prop := Forall job_ok (jobs s) /\ active s = total (jobs s).

Lemma step_jinv s a s' : jinv s -> step s a = Some s' -> jinv s'.
Proof.
  intros (F & T) ST.
  assert (KEEP : forall s', jobs s' = jobs s -> active s' = active s -> jinv s') by (intros t A B; unfold jinv; rewrite A, B; auto).
  destruct a as [| |i|i|i| | | | | | | | | |j|j|j|j]; cbn [LoopExitModel.step] in ST.
  - injection ST as <-. apply KEEP; auto.
  - destruct (running s) eqn:RN; [|discriminate]. injection ST as <-. apply KEEP; auto.
  - destruct (nth_error (tasks s) i) as [t|] eqn:X; [|discriminate]. destruct (free s && alive t); [|discriminate]. injection ST as <-. apply KEEP; auto.
  - destruct (free s && is_alive s i); [|discriminate]. injection ST as <-. apply KEEP; auto.
  - destruct (busy s); [|discriminate]. destruct (i =? n); [|discriminate]. injection ST as <-. apply KEEP; auto.
  - destruct (running s) eqn:RN; [|discriminate]. injection ST as <-. unfold error. destruct (suppressing s); apply KEEP; auto.
  - destruct (mpc s) eqn:M; try discriminate. injection ST as <-. unfold leave. destruct strict; apply KEEP; auto.
  - destruct (mpc s) eqn:M; try discriminate. destruct (canc s) eqn:K; try discriminate. injection ST as <-. apply KEEP; auto.
  - destruct (mpc s) eqn:M; try discriminate. injection ST as <-. apply KEEP; auto.
  - destruct (mpc s) eqn:M; try discriminate. destruct (running s) eqn:R; [discriminate|]. injection ST as <-. apply KEEP; auto.
  - destruct (canc s) eqn:K; try discriminate. destruct (free s); [|discriminate]. injection ST as <-. unfold cancel. destruct (living 0 (tasks s)); apply KEEP; auto.
  - destruct (canc s) as [| |ids d|] eqn:K; try discriminate. destruct (free s && _); [|discriminate]. injection ST as <-. apply KEEP; auto.
  - destruct (mpc s) eqn:M; try discriminate. destruct (free s); [|discriminate]. injection ST as <-. apply KEEP; auto.
  - injection ST as <-. split; cbn.
    + apply Forall_app. split; [exact F|]. repeat constructor; cbn; discriminate.
    + rewrite total_app. change (total [mkJob false Accepted false false]) with 0. lia.
  - destruct (nth_error (jobs s) j) as [[f g x p]|] eqn:X; [|discriminate]. destruct g; try discriminate. injection ST as <-. pose proof (Forall_nth _ _ _ _ F X) as (A & B & C). cbn in *.
    assert (p = false) by (destruct p; [destruct A; auto; discriminate|reflexivity]). assert (x = false) by (destruct x; [destruct B; auto; discriminate|reflexivity]). subst. split; cbn.
    + apply Forall_set; [exact F|]. repeat split; cbn; discriminate.
    + pose proof (total_set _ _ _ (mkJob f Counted false false) X). unfold weight in H; cbn [stg paid] in H; lia.
  - destruct (nth_error (jobs s) j) as [[f g x p]|] eqn:X; [|discriminate]. destruct g; try (destruct f; discriminate). pose proof (Forall_nth _ _ _ _ F X) as (A & B & C). cbn in *.
    assert (p = false) by (destruct p; [destruct A; auto; discriminate|reflexivity]). subst.
    destruct f; injection ST as <-; (split; cbn; [apply Forall_set; [exact F|]; repeat split; cbn; auto; discriminate|]).
    + pose proof (total_set _ _ _ (mkJob true Returned false true) X). unfold weight in H; cbn [stg paid] in H; lia.
    + pose proof (total_set _ _ _ (mkJob false Returned true false) X). unfold weight in H; cbn [stg paid] in H; lia.
  - destruct (nth_error (jobs s) j) as [[f g x p]|] eqn:X; [|discriminate]. destruct f; [discriminate|]. injection ST as <-. pose proof (Forall_nth _ _ _ _ F X) as (A & B & C). cbn in *. split; cbn.
    + apply Forall_set; [exact F|]. split; [intros P; split; [reflexivity|now apply A]|]. split; [exact B|exact C].
    + pose proof (total_set _ _ _ (mkJob true g x p) X). unfold weight in H; cbn [stg paid] in H; lia.
  - destruct (nth_error (jobs s) j) as [[f g x p]|] eqn:X; [|discriminate]. destruct f; [|discriminate]. destruct x; [|discriminate]. injection ST as <-. pose proof (Forall_nth _ _ _ _ F X) as (A & B & C). cbn in *.
    destruct (B eq_refl) as (-> & ->). split; cbn.
    + apply Forall_set; [exact F|]. repeat split; cbn; auto; discriminate.
    + pose proof (total_set _ _ _ (mkJob true Returned false true) X). unfold weight in H; cbn [stg paid] in H; lia.
Qed.

Lemma jinv_init : jinv init.
Proof. split; [constructor|reflexivity]. Qed.
Lemma run_jinv l : forall s s', jinv s -> run s l = Some s' -> jinv s'.
Proof.
  induction l as [|a l IH]; intros s s' J R; cbn [LoopExitModel.run] in R; [now injection R as <-|]. destruct (step s a) as [s1|] eqn:SS; [|discriminate]. eapply IH; [eapply step_jinv; eauto|exact R].
Qed.

Lemma idle_over s : jinv s -> active s = 0 -> forall j, submitted s j -> over s j.
Proof.
  intros (F & T) Z j (x & X & G). exists x. split; [exact X|]. pose proof (Forall_nth _ _ _ _ F X) as (A & B & C). destruct (paid x) eqn:P; [apply A; reflexivity|].
  exfalso. assert (W : weight x = 1) by (unfold weight; now rewrite G, P). rewrite Z in T. clear -T X W. unfold total in T. revert j X. induction (jobs s) as [|y l IH]; intros [|j]; cbn in *; try discriminate; [intros [= ->]; lia|]. intros X. eapply IH; [lia|exact X].
Qed.

Lemma quiet_count s : jinv s -> (forall j x, nth_error (jobs s) j = Some x -> stg x = Returned /\ (finished x = true -> attached x = false)) -> active s = length (filter (fun x => negb (finished x)) (jobs s)).
Proof.
  intros (F & T) Q. rewrite T. clear T. induction (jobs s) as [|x l IH]; [reflexivity|]. apply Forall_cons_iff in F. destruct F as ((A & B & C) & F).
  destruct (Q 0 x eq_refl) as (Q1 & Q2). unfold total. cbn [fold_right filter]. fold (total l). rewrite IH; [|exact F|intros j y H; apply (Q (S j) y H)].
  unfold weight. rewrite Q1. destruct (finished x) eqn:FI; cbn [negb length].
  - rewrite (C Q1 (Q2 eq_refl)). reflexivity.
  - destruct (paid x); [destruct A; auto; discriminate|reflexivity].
Qed.

(** ** A blocked loop *)
Lemma blocked_stays s a s' i : busy s = Some i -> running s = true -> mpc s <> MClosed -> a <> Unblock i -> step s a = Some s' -> busy s' = Some i /\ running s' = true /\ mpc s' <> MClosed.
Proof.
  intros BU R M NU ST. assert (FR : free s = false) by (unfold free; now rewrite BU, andb_false_r).
  destruct a as [| |k|k|k| | | | | | | | | |j|j|j|j]; cbn [LoopExitModel.step] in ST; rewrite ?FR in ST; cbn [andb] in ST.
  - injection ST as <-. auto.
  - rewrite R in ST. injection ST as <-. auto.
  - destruct (nth_error (tasks s) k); discriminate.
  - discriminate.
  - rewrite BU in ST. destruct (Nat.eqb_spec k i) as [->|N]; [congruence|discriminate].
  - rewrite R in ST. injection ST as <-. unfold error. destruct (suppressing s); auto.
  - destruct (mpc s); try discriminate. injection ST as <-. unfold leave. destruct strict; cbn; repeat split; auto; discriminate.
  - destruct (mpc s); try discriminate. destruct (canc s); try discriminate. injection ST as <-. cbn. repeat split; auto; discriminate.
  - destruct (mpc s); try discriminate. injection ST as <-. cbn. repeat split; auto; discriminate.
  - destruct (mpc s); try discriminate. rewrite R in ST. discriminate.
  - destruct (canc s); discriminate.
  - destruct (canc s); discriminate.
  - destruct (mpc s); discriminate.
  - injection ST as <-. auto.
  - destruct (nth_error (jobs s) j) as [[f [] x p]|]; try discriminate. injection ST as <-. auto.
  - destruct (nth_error (jobs s) j) as [[[] [] x p]|]; try discriminate; injection ST as <-; auto.
  - destruct (nth_error (jobs s) j) as [[[] g x p]|]; try discriminate. injection ST as <-. auto.
  - destruct (nth_error (jobs s) j) as [[[] g [] p]|]; try discriminate. injection ST as <-. auto.
Qed.

(** ** From the labels to the states *)
Lemma step_left_run s a s' : step s a = Some s' -> (mpc s' = MRun <-> mpc s = MRun /\ a <> Leave).
Proof.
  intros ST.
  assert (KEEP : forall s', mpc s' = mpc s -> a <> Leave -> (mpc s' = MRun <-> mpc s = MRun /\ a <> Leave)) by (intros t A B; rewrite A; tauto).
  destruct a as [| |i|i|i| | | | | | | | | |j|j|j|j]; cbn [LoopExitModel.step] in ST.
  - injection ST as <-. apply KEEP; auto; discriminate.
  - destruct (running s) eqn:RN; [|discriminate]. injection ST as <-. apply KEEP; auto; discriminate.
  - destruct (nth_error (tasks s) i) as [t|] eqn:X; [|discriminate]. destruct (free s && alive t); [|discriminate]. injection ST as <-. apply KEEP; auto; discriminate.
  - destruct (free s && is_alive s i); [|discriminate]. injection ST as <-. apply KEEP; auto; discriminate.
  - destruct (busy s); [|discriminate]. destruct (i =? n); [|discriminate]. injection ST as <-. apply KEEP; auto; discriminate.
  - destruct (running s) eqn:RN; [|discriminate]. injection ST as <-. unfold error. destruct (suppressing s); apply KEEP; auto; discriminate.
  - destruct (mpc s) eqn:M; try discriminate. injection ST as <-. unfold leave. destruct strict; cbn; split; try discriminate; intros (_ & Z); congruence.
  - destruct (mpc s) eqn:M; try discriminate. destruct (canc s) eqn:K; try discriminate. injection ST as <-. cbn. split; [discriminate|intros (Z & _); discriminate].
  - destruct (mpc s) eqn:M; try discriminate. injection ST as <-. cbn. split; [discriminate|intros (Z & _); discriminate].
  - destruct (mpc s) eqn:M; try discriminate. destruct (running s) eqn:R; [discriminate|]. injection ST as <-. cbn. split; [discriminate|intros (Z & _); discriminate].
  - destruct (canc s) eqn:K; try discriminate. destruct (free s); [|discriminate]. injection ST as <-. unfold cancel. destruct (living 0 (tasks s)); apply KEEP; auto; discriminate.
  - destruct (canc s) as [| |ids d|] eqn:K; try discriminate. destruct (free s && _); [|discriminate]. injection ST as <-. apply KEEP; auto; discriminate.
  - destruct (mpc s) eqn:M; try discriminate. destruct (free s); [|discriminate]. injection ST as <-. cbn. split; [discriminate|intros (Z & _); discriminate].
  - injection ST as <-. apply KEEP; auto; discriminate.
  - destruct (nth_error (jobs s) j) as [[f [] x p]|]; try discriminate. injection ST as <-. apply KEEP; auto; discriminate.
  - destruct (nth_error (jobs s) j) as [[[] [] x p]|]; try discriminate; injection ST as <-; apply KEEP; auto; discriminate.
  - destruct (nth_error (jobs s) j) as [[[] g x p]|]; try discriminate. injection ST as <-. apply KEEP; auto; discriminate.
  - destruct (nth_error (jobs s) j) as [[[] g [] p]|]; try discriminate. injection ST as <-. apply KEEP; auto; discriminate.
Qed.
Lemma run_left_run l : forall s s', run s l = Some s' -> (mpc s' = MRun <-> mpc s = MRun /\ ~ In Leave l).
Proof.
  induction l as [|a l IH]; intros s s' R; cbn [LoopExitModel.run] in R; [injection R as <-; cbn; tauto|]. destruct (step s a) as [s1|] eqn:SS; [|discriminate].
  rewrite (IH _ _ R), (step_left_run _ _ _ SS). cbn [In]. split; [intros ((A & B) & C); split; [exact A|]; intros [D|D]; auto|]. intros (A & B). repeat split; auto.
Qed.

(** The result, once there, stays; and how it came. *)
Lemma step_result s a s' : ctl s -> step s a = Some s' ->
  (result s <> None -> result s' = result s /\ a <> Interrupt /\ a <> Result) /\
  (result s = None -> a <> Result -> a <> Interrupt -> result s' = None) /\
  (a = Interrupt -> exists r, result s' = Some r /\ forced_interrupt r = true) /\
  (a = Result -> exists r c p, result s' = Some r /\ forced_interrupt r = false /\ canc s = KDone c p /\ cancelled_tasks r = c /\ pending_tasks r = p).
Proof.
  intros CT ST.
  assert (KEEP : forall s', result s' = result s -> a <> Interrupt -> a <> Result ->
    (result s <> None -> result s' = result s /\ a <> Interrupt /\ a <> Result) /\
    (result s = None -> a <> Result -> a <> Interrupt -> result s' = None) /\
    (a = Interrupt -> exists r, result s' = Some r /\ forced_interrupt r = true) /\
    (a = Result -> exists r c p, result s' = Some r /\ forced_interrupt r = false /\ canc s = KDone c p /\ cancelled_tasks r = c /\ pending_tasks r = p)).
  { intros t A B C. rewrite A. repeat split; auto; congruence. }
  destruct a as [| |i|i|i| | | | | | | | | |j|j|j|j]; cbn [LoopExitModel.step] in ST.
  - injection ST as <-. apply KEEP; auto; discriminate.
  - destruct (running s) eqn:RN; [|discriminate]. injection ST as <-. apply KEEP; auto; discriminate.
  - destruct (nth_error (tasks s) i) as [t|] eqn:X; [|discriminate]. destruct (free s && alive t); [|discriminate]. injection ST as <-. apply KEEP; auto; discriminate.
  - destruct (free s && is_alive s i); [|discriminate]. injection ST as <-. apply KEEP; auto; discriminate.
  - destruct (busy s); [|discriminate]. destruct (i =? n); [|discriminate]. injection ST as <-. apply KEEP; auto; discriminate.
  - destruct (running s) eqn:RN; [|discriminate]. injection ST as <-. unfold error. destruct (suppressing s); apply KEEP; auto; discriminate.
  - destruct (mpc s) eqn:M; try discriminate. injection ST as <-. unfold leave. destruct strict; apply KEEP; auto; discriminate.
  - destruct (mpc s) eqn:M; try discriminate. destruct (canc s) as [| | |c p] eqn:K; try discriminate. injection ST as <-. destruct (k_await _ CT M) as (_ & Z & _). rewrite Z.
    repeat split; try congruence. intros _. do 3 eexists. split; [reflexivity|]. split; [reflexivity|]. split; [reflexivity|]. split; reflexivity.
  - destruct (mpc s) eqn:M; try discriminate. injection ST as <-. destruct (k_await _ CT M) as (_ & Z & _). rewrite Z. repeat split; try congruence. intros _. eexists. split; reflexivity.
  - destruct (mpc s) eqn:M; try discriminate. destruct (running s) eqn:R; [discriminate|]. injection ST as <-. apply KEEP; auto; discriminate.
  - destruct (canc s) eqn:K; try discriminate. destruct (free s); [|discriminate]. injection ST as <-. unfold cancel. destruct (living 0 (tasks s)); apply KEEP; auto; discriminate.
  - destruct (canc s) as [| |ids d|] eqn:K; try discriminate. destruct (free s && _); [|discriminate]. injection ST as <-. apply KEEP; auto; discriminate.
  - destruct (mpc s) eqn:M; try discriminate. destruct (free s); [|discriminate]. injection ST as <-. apply KEEP; auto; discriminate.
  - injection ST as <-. apply KEEP; auto; discriminate.
  - destruct (nth_error (jobs s) j) as [[f [] x p]|]; try discriminate. injection ST as <-. apply KEEP; auto; discriminate.
  - destruct (nth_error (jobs s) j) as [[[] [] x p]|]; try discriminate; injection ST as <-; apply KEEP; auto; discriminate.
  - destruct (nth_error (jobs s) j) as [[[] g x p]|]; try discriminate. injection ST as <-. apply KEEP; auto; discriminate.
  - destruct (nth_error (jobs s) j) as [[[] g [] p]|]; try discriminate. injection ST as <-. apply KEEP; auto; discriminate.
Qed.

Lemma which a : {a = Result} + {a = Interrupt} + {a <> Result /\ a <> Interrupt}.
Proof. destruct a; first [left; left; reflexivity|left; right; reflexivity|right; split; discriminate]. Qed.

Lemma result_stays l : forall s s' r, ctl s -> result s = Some r -> run s l = Some s' -> result s' = Some r /\ ~ In Interrupt l /\ ~ In Result l.
Proof.
  induction l as [|a l IH]; intros s s' r CT RE R; cbn [LoopExitModel.run] in R; [injection R as <-; auto|]. destruct (step s a) as [s1|] eqn:SS; [|discriminate].
  destruct (step_result _ _ _ CT SS) as (A & _). destruct A as (A & B & C); [congruence|]. rewrite RE in A. destruct (IH _ _ _ (step_ctl _ _ _ CT SS) A R) as (D & E & F).
  split; [exact D|]. split; intros [G|G]; auto.
Qed.

Lemma result_how l : forall s s' r, ctl s -> result s = None -> run s l = Some s' -> result s' = Some r ->
  exists l1 a l2 s1 s2, l = l1 ++ a :: l2 /\ run s l1 = Some s1 /\ step s1 a = Some s2 /\ run s2 l2 = Some s' /\ result s1 = None /\ result s2 = Some r /\
    (a = Result \/ a = Interrupt) /\ (forced_interrupt r = true <-> a = Interrupt).
Proof.
  induction l as [|a l IH]; intros s s' r CT RN R RE; cbn [LoopExitModel.run] in R; [congruence|]. destruct (step s a) as [s1|] eqn:SS; [|discriminate].
  pose proof (step_ctl _ _ _ CT SS) as CT1. destruct (step_result _ _ _ CT SS) as (_ & A & B & C).
  assert (GO : forall r', result s1 = Some r' -> r' = r). { intros r' H. destruct (result_stays _ _ _ _ CT1 H R) as (Z & _). congruence. }
  destruct (which a) as [[->| ->]|(W1 & W2)].
  - destruct (C eq_refl) as (r' & c & p & D1 & D2 & _). pose proof (GO _ D1). subst r'. exists [], Result, l, s, s1. repeat split; auto. + congruence. + congruence.
  - destruct (B eq_refl) as (r' & D1 & D2). pose proof (GO _ D1). subst r'. exists [], Interrupt, l, s, s1. repeat split; auto.
  - destruct (IH _ _ _ CT1 (A RN W1 W2) R RE) as (l1 & b & l2 & t1 & t2 & -> & H1 & H2). exists (a :: l1), b, l2, t1, t2. split; [reflexivity|]. split; [|exact H2]. cbn [LoopExitModel.run]. rewrite SS. exact H1.
Qed.

(** What the canceller has found does not change. *)
Lemma done_stays l : forall s s' c p, ctl s -> canc s = KDone c p -> run s l = Some s' -> canc s' = KDone c p.
Proof.
  induction l as [|a l IH]; intros s s' c p CT K R; cbn [LoopExitModel.run] in R; [injection R as <-; auto|]. destruct (step s a) as [s1|] eqn:SS; [|discriminate].
  apply (IH s1 _ _ _ (step_ctl _ _ _ CT SS)); [|exact R]. clear IH R.
  destruct a as [| |i|i|i| | | | | | | | | |j|j|j|j]; cbn [LoopExitModel.step] in SS.
  - injection SS as <-. exact K.
  - destruct (running s) eqn:RN; [|discriminate]. injection SS as <-. exact K.
  - destruct (nth_error (tasks s) i) as [t|] eqn:X; [|discriminate]. destruct (free s && alive t); [|discriminate]. injection SS as <-. exact K.
  - destruct (free s && is_alive s i); [|discriminate]. injection SS as <-. exact K.
  - destruct (busy s); [|discriminate]. destruct (i =? n); [|discriminate]. injection SS as <-. exact K.
  - destruct (running s) eqn:RN; [|discriminate]. injection SS as <-. unfold error. destruct (suppressing s); exact K.
  - destruct (mpc s) eqn:M; try discriminate. destruct (k_run _ CT M) as (Z & _). congruence.
  - destruct (mpc s) eqn:M; try discriminate. rewrite K in SS. injection SS as <-. exact K.
  - destruct (mpc s) eqn:M; try discriminate. injection SS as <-. exact K.
  - destruct (mpc s) eqn:M; try discriminate. destruct (running s) eqn:R; [discriminate|]. injection SS as <-. exact K.
  - rewrite K in SS. discriminate.
  - rewrite K in SS. discriminate.
  - destruct (mpc s) eqn:M; try discriminate. destruct (free s); [|discriminate]. injection SS as <-. exact K.
  - injection SS as <-. exact K.
  - destruct (nth_error (jobs s) j) as [[f [] x p']|]; try discriminate. injection SS as <-. exact K.
  - destruct (nth_error (jobs s) j) as [[[] [] x p']|]; try discriminate; injection SS as <-; exact K.
  - destruct (nth_error (jobs s) j) as [[[] g x p']|]; try discriminate. injection SS as <-. exact K.
  - destruct (nth_error (jobs s) j) as [[[] g [] p']|]; try discriminate. injection SS as <-. exact K.
Qed.

(** While it waits, the deadline is fixed. *)
Lemma wait_stays l : forall s s' ids d, ctl s -> canc s = KWait ids d -> ~ In Wake l -> run s l = Some s' -> canc s' = KWait ids d /\ now s' = now s + how_many is_tick l.
Proof.
  induction l as [|a l IH]; intros s s' ids d CT K N R; cbn [LoopExitModel.run] in R; [injection R as <-; cbn; auto|]. destruct (step s a) as [s1|] eqn:SS; [|discriminate].
  assert (Z : canc s1 = KWait ids d /\ now s1 = now s + (if is_tick a then 1 else 0)).
  { clear IH R. destruct a as [| |i|i|i| | | | | | | | | |j|j|j|j]; cbn [LoopExitModel.step is_tick] in *; rewrite ?Nat.add_0_r.
    - injection SS as <-. cbn. split; [exact K|lia].
    - destruct (running s) eqn:RN; [|discriminate]. injection SS as <-. auto.
    - destruct (nth_error (tasks s) i) as [t|] eqn:X; [|discriminate]. destruct (free s && alive t); [|discriminate]. injection SS as <-. auto.
    - destruct (free s && is_alive s i); [|discriminate]. injection SS as <-. auto.
    - destruct (busy s); [|discriminate]. destruct (i =? n); [|discriminate]. injection SS as <-. auto.
    - destruct (running s) eqn:RN; [|discriminate]. injection SS as <-. unfold error. destruct (suppressing s); auto.
    - destruct (mpc s) eqn:M; try discriminate. destruct (k_run _ CT M) as (Z & _). congruence.
    - destruct (mpc s) eqn:M; try discriminate. rewrite K in SS. discriminate.
    - destruct (mpc s) eqn:M; try discriminate. injection SS as <-. auto.
    - destruct (mpc s) eqn:M; try discriminate. destruct (running s) eqn:R; [discriminate|]. injection SS as <-. auto.
    - rewrite K in SS. discriminate.
    - destruct N. now left.
    - destruct (mpc s) eqn:M; try discriminate. destruct (free s); [|discriminate]. injection SS as <-. auto.
    - injection SS as <-. auto.
    - destruct (nth_error (jobs s) j) as [[f [] x p']|]; try discriminate. injection SS as <-. auto.
    - destruct (nth_error (jobs s) j) as [[[] [] x p']|]; try discriminate; injection SS as <-; auto.
    - destruct (nth_error (jobs s) j) as [[[] g x p']|]; try discriminate. injection SS as <-. auto.
    - destruct (nth_error (jobs s) j) as [[[] g [] p']|]; try discriminate. injection SS as <-. auto. }
  destruct Z as (Z1 & Z2). destruct (IH _ _ _ _ (step_ctl _ _ _ CT SS) Z1 (fun H => N (or_intror H)) R) as (Y1 & Y2). split; [exact Y1|]. rewrite Y2, Z2. unfold how_many. cbn [filter]. destruct (is_tick a); cbn [length]; lia.
Qed.

(** Without new tasks, who is alive was. *)
Lemma step_alive s a s' i : step s a = Some s' -> a <> Spawn -> alive_at s' i -> alive_at s i.
Proof.
  intros ST NS.
  assert (KEEP : forall s', tasks s' = tasks s -> alive_at s' i -> alive_at s i) by (intros t A; exact (proj1 (alive_ext s t A i))).
  destruct a as [| |k|k|k| | | | | | | | | |j|j|j|j]; cbn [LoopExitModel.step] in ST; try congruence.
  - injection ST as <-. apply KEEP; auto.
  - destruct (nth_error (tasks s) k) as [t|] eqn:X; [|discriminate]. destruct (free s && alive t); [|discriminate]. injection ST as <-. unfold alive_at. cbn [set_tasks tasks].
    destruct (Nat.eq_dec k i) as [<-|N]; [|rewrite nth_set_other by exact N; auto]. rewrite (nth_set_same _ _ _ _ X). intros (t' & [= <-] & H). discriminate.
  - destruct (free s && is_alive s k); [|discriminate]. injection ST as <-. apply KEEP; auto.
  - destruct (busy s); [|discriminate]. destruct (k =? n); [|discriminate]. injection ST as <-. apply KEEP; auto.
  - destruct (running s) eqn:RN; [|discriminate]. injection ST as <-. unfold error. destruct (suppressing s); apply KEEP; auto.
  - destruct (mpc s) eqn:M; try discriminate. injection ST as <-. unfold leave. destruct strict; apply KEEP; auto.
  - destruct (mpc s) eqn:M; try discriminate. destruct (canc s) eqn:K; try discriminate. injection ST as <-. apply KEEP; auto.
  - destruct (mpc s) eqn:M; try discriminate. injection ST as <-. apply KEEP; auto.
  - destruct (mpc s) eqn:M; try discriminate. destruct (running s) eqn:R; [discriminate|]. injection ST as <-. apply KEEP; auto.
  - destruct (canc s) eqn:K; try discriminate. destruct (free s); [|discriminate]. injection ST as <-. unfold cancel. destruct (living 0 (tasks s)); [apply KEEP; auto|]. unfold alive_at. cbn [set_canc set_tasks tasks]. rewrite ask_all_nth.
    destruct (nth_error (tasks s) i) as [t|]; [|auto]. intros (t' & [= <-] & H). destruct (alive t) eqn:AL; [eauto|congruence].
  - destruct (canc s) as [| |ids d|] eqn:K; try discriminate. destruct (free s && _); [|discriminate]. injection ST as <-. apply KEEP; auto.
  - destruct (mpc s) eqn:M; try discriminate. destruct (free s); [|discriminate]. injection ST as <-. apply KEEP; auto.
  - injection ST as <-. apply KEEP; auto.
  - destruct (nth_error (jobs s) j) as [[f [] x p]|]; try discriminate. injection ST as <-. apply KEEP; auto.
  - destruct (nth_error (jobs s) j) as [[[] [] x p]|]; try discriminate; injection ST as <-; apply KEEP; auto.
  - destruct (nth_error (jobs s) j) as [[[] g x p]|]; try discriminate. injection ST as <-. apply KEEP; auto.
  - destruct (nth_error (jobs s) j) as [[[] g [] p]|]; try discriminate. injection ST as <-. apply KEEP; auto.
Qed.
Lemma run_alive l i : forall s s', run s l = Some s' -> ~ In Spawn l -> alive_at s' i -> alive_at s i.
Proof.
  induction l as [|a l IH]; intros s s' R N; cbn [LoopExitModel.run] in R; [now injection R as <-|]. destruct (step s a) as [s1|] eqn:SS; [|discriminate].
  intros H. apply (step_alive _ _ _ _ SS); [intros ->; apply N; now left|]. eapply IH; eauto. intros Z. apply N. now right.
Qed.

(** If the canceller is past its beginning, [Cancel] is among the labels. *)
Lemma cancel_when l : forall s s', ctl s -> early s -> run s l = Some s' -> canc s' <> KNo -> canc s' <> KSent -> exists l1 l2 s1 s2, l = l1 ++ Cancel :: l2 /\ run s l1 = Some s1 /\ step s1 Cancel = Some s2 /\ run s2 l2 = Some s'.
Proof.
  induction l as [|a l IH]; intros s s' CT EA R N1 N2; cbn [LoopExitModel.run] in R; [injection R as <-; destruct EA as ([Z|Z] & _); congruence|]. destruct (step s a) as [s1|] eqn:SS; [|discriminate].
  assert (D : {a = Cancel} + {a <> Cancel}) by (destruct a; (left; reflexivity) || (right; discriminate)). destruct D as [->|D]; [exists [], l, s, s1; auto|].
  destruct (IH _ _ (step_ctl _ _ _ CT SS) (proj1 (proj1 (step_inv _ _ _ CT SS) D) EA) R N1 N2) as (l1 & l2 & t1 & t2 & -> & H1 & H2). exists (a :: l1), l2, t1, t2. split; [reflexivity|]. split; [|exact H2]. cbn [LoopExitModel.run]. rewrite SS. exact H1.
Qed.

(** ** The way out *)
Lemma out_stop s : mpc s = MStop -> busy s = None -> exists l s', run s l = Some s' /\ mpc s' = MClosed /\ Forall (fun a => own a = true) l.
Proof.
  intros M BU. destruct (running s) eqn:R.
  - exists [StopLoop; Join]. eexists. cbn. unfold free. rewrite M, R, BU. cbn. repeat split; auto.
  - exists [Join]. eexists. cbn. rewrite M, R. cbn. repeat split; auto.
Qed.
Lemma out_done s c p : mpc s = MAwait -> canc s = KDone c p -> busy s = None -> exists l s', run s l = Some s' /\ mpc s' = MClosed /\ Forall (fun a => own a = true) l.
Proof.
  intros M K BU. destruct (out_stop (summarise s c p false) eq_refl BU) as (l & s' & A & B & C). exists (Result :: l), s'. cbn [LoopExitModel.run LoopExitModel.step]. rewrite M, K. repeat split; auto.
Qed.

Lemma no_ticks l : Forall (fun a => own a = true) l -> how_many is_tick l = 0.
Proof. unfold how_many. induction 1 as [|a l A F IH]; [reflexivity|]. cbn [filter]. destruct a; cbn in *; try discriminate; exact IH. Qed.

Lemma out_wait n : forall s ids d, mpc s = MAwait -> canc s = KWait ids d -> busy s = None -> running s = true -> d <= now s + n ->
  exists l s', run s l = Some s' /\ mpc s' = MClosed /\ how_many is_tick l <= n /\ Forall (fun a => own a = true \/ a = Tick) l.
Proof.
  induction n as [|n IH]; intros s ids d M K BU RN D.
  - rewrite Nat.add_0_r in D. apply Nat.leb_le in D.
    destruct (out_done (set_canc s (KDone (length ids) (length (filter (is_alive s) ids)))) _ _ M eq_refl BU) as (l & s' & A & B & C).
    exists (Wake :: l), s'. cbn [LoopExitModel.run LoopExitModel.step]. rewrite K. unfold free. rewrite RN, BU, D, orb_true_r. cbn [andb]. split; [exact A|]. split; [exact B|].
    split; [pose proof (no_ticks _ C); unfold how_many in *; cbn [filter is_tick]; lia|]. constructor; [auto|]. eapply Forall_impl; [|exact C]. auto.
  - destruct (IH (mkSt (S (now s)) (tasks s) (busy s) (canc s) (mpc s) (running s) (suppressing s) (suppressed s) (shown s) (jobs s) (active s) (result s)) ids d) as (l & s' & A & B & C & F); cbn; auto; [lia|].
    exists (Tick :: l), s'. split; [exact A|]. split; [exact B|]. split; [unfold how_many in *; cbn [filter is_tick length]; lia|]. constructor; auto.
Qed.

Lemma out_prompt s ids d : mpc s = MAwait -> canc s = KWait ids d -> busy s = None -> running s = true -> (forall i, In i ids -> ~ alive_at s i) ->
  exists l s', run s l = Some s' /\ mpc s' = MClosed /\ Forall (fun a => own a = true) l.
Proof.
  intros M K BU RN N. assert (FI : filter (is_alive s) ids = []).
  { destruct (filter (is_alive s) ids) as [|i q] eqn:E; [reflexivity|]. assert (H : In i (filter (is_alive s) ids)) by (rewrite E; now left). apply filter_In in H. destruct H as (H1 & H2). apply is_alive_spec in H2. destruct (N i H1 H2). }
  destruct (out_done (set_canc s (KDone (length ids) 0)) _ _ M eq_refl BU) as (l & s' & A & B & C).
  exists (Wake :: l), s'. cbn [LoopExitModel.run LoopExitModel.step]. rewrite K. unfold free. rewrite RN, BU, FI. cbn [andb orb length]. split; [exact A|]. split; [exact B|]. now constructor.
Qed.

Lemma out s : ctl s -> linv s -> mpc s <> MRun -> busy s = None ->
  exists l s', run s l = Some s' /\ mpc s' = MClosed /\ how_many is_tick l <= timeout /\ Forall (fun a => own a = true \/ a = Tick) l.
Proof.
  intros CT I M BU.
  assert (EASY : (exists l s', run s l = Some s' /\ mpc s' = MClosed /\ Forall (fun a => own a = true) l) -> exists l s', run s l = Some s' /\ mpc s' = MClosed /\ how_many is_tick l <= timeout /\ Forall (fun a => own a = true \/ a = Tick) l).
  { intros (l & s' & A & B & C). exists l, s'. repeat split; auto; [rewrite (no_ticks _ C); lia|]. eapply Forall_impl; [|exact C]. auto. }
  destruct (mpc s) eqn:MP; [congruence| | |].
  - assert (RN : running s = true). { destruct (running s) eqn:R; [reflexivity|]. destruct (k_off _ CT R) as (_ & [Z|Z]); congruence. }
    destruct (k_await _ CT MP) as (K & _). destruct (canc s) as [| |ids d|c p] eqn:KC; [congruence| | |].
    + assert (Z : exists l s', run (cancel timeout s) l = Some s' /\ mpc s' = MClosed /\ how_many is_tick l <= timeout /\ Forall (fun a => own a = true \/ a = Tick) l).
      { unfold cancel. destruct (living 0 (tasks s)) as [|i ids] eqn:L.
        - destruct (out_done (set_canc s (KDone 0 0)) _ _ MP eq_refl BU) as (l & s' & A & B & C). exists l, s'. repeat split; auto; [rewrite (no_ticks _ C); lia|]. eapply Forall_impl; [|exact C]. auto.
        - eapply out_wait; cbn; eauto. }
      destruct Z as (l & s' & A & B & C & F). exists (Cancel :: l), s'. cbn [LoopExitModel.run LoopExitModel.step]. rewrite KC. unfold free. rewrite RN, BU. cbn [andb]. repeat split; auto.
    + eapply out_wait; eauto. destruct I as [(Z & _)|(i' & CA)]; [destruct Z; congruence|]. destruct (c_canc _ _ CA) as [(d' & Z & D)|(q & Z & _)]; congruence.
    + apply EASY. eapply out_done; eauto.
  - apply EASY. apply out_stop; auto.
  - exists [], s. repeat split; auto. cbn. lia.
Qed.

(** [Wake]. *)
Lemma wake_done s s' : step s Wake = Some s' -> exists ids d, canc s = KWait ids d /\ canc s' = KDone (length ids) (length (filter (is_alive s) ids)) /\
  (filter (is_alive s) ids = [] \/ d <= now s).
Proof.
  cbn. destruct (canc s) as [| |ids d|]; try discriminate. destruct (free s); [|discriminate]. cbn [andb]. intros H. exists ids, d. split; [reflexivity|].
  destruct (filter (is_alive s) ids) as [|i q]; cbn [orb] in H; [injection H as <-; auto|]. destruct (Nat.leb_spec d (now s)) as [L|L]; [|discriminate]. injection H as <-. auto.
Qed.
End Proofs.
