(** Proofs for C97. *)
From Coq Require Import List Arith Bool Lia.
From Verif Require Import LeaseModel LeaseSpec.
Import ListNotations.

Lemma steps_app s es es' : steps s (es ++ es') = match steps s es with Some s1 => steps s1 es' | None => None end.
Proof. revert s. induction es as [|e es IH]; intros s; cbn; [reflexivity|]. destruct (step s e); auto. Qed.

Lemma steps_snoc s es e s' : steps s (es ++ [e]) = Some s' -> exists s1, steps s es = Some s1 /\ step s1 e = Some s'.
Proof.
  rewrite steps_app. destruct (steps s es) as [s1|]; [|discriminate]. intros H. exists s1. split; [reflexivity|].
  cbn [steps] in H. destruct (step s1 e); exact H.
Qed.

Arguments upd2 : simpl never.
Arguments upd : simpl never.
Arguments current : simpl never.

Lemma upd_eq {A : Type} (f : nat -> A) i x : upd f i x i = x.
Proof. unfold upd. now rewrite Nat.eqb_refl. Qed.
Lemma upd_neq {A : Type} (f : nat -> A) i j x : j <> i -> upd f i x j = f j.
Proof. intros H. unfold upd. apply Nat.eqb_neq in H. now rewrite H. Qed.

Lemma same_spec k k' : same k k' = true <-> k = k'.
Proof. destruct k, k'; cbn; split; congruence. Qed.

Lemma upd2_eq {A : Type} (f : side -> nat -> A) k i x : upd2 f k i x k i = x.
Proof. unfold upd2. rewrite Nat.eqb_refl. now destruct k. Qed.
Lemma upd2_neq {A : Type} (f : side -> nat -> A) k i x k' j : (k' <> k \/ j <> i) -> upd2 f k i x k' j = f k' j.
Proof.
  intros H. unfold upd2. destruct (same k' k) eqn:E; [|reflexivity]. apply same_spec in E. destruct H as [H|H]; [contradiction|].
  apply Nat.eqb_neq in H. now rewrite H.
Qed.

Lemma here (k k' : side) (j j' : nat) : (k = k' /\ j = j') \/ (k <> k' \/ j <> j').
Proof.
  destruct (Nat.eq_dec j j') as [E|E]; [|auto]. destruct (same k k') eqn:F; [apply same_spec in F; auto|].
  right. left. intros G. apply same_spec in G. congruence.
Qed.

(** What the loop has been handed for a task: [true] to start it, [false] to cancel it. *)
Definition word (k : side) (j : nat) (x : job) : list bool :=
  match x with
  | Start k' j' => if same k k' && (j =? j') then [true] else []
  | Stop k' j' => if same k k' && (j =? j') then [false] else []
  | Close _ => []
  end.
Definition mine (k : side) (j : nat) (js : list job) : list bool := flat_map (word k j) js.
Arguments mine : simpl never.
Arguments word : simpl never.

Lemma mine_app k j a b : mine k j (a ++ b) = mine k j a ++ mine k j b.
Proof. unfold mine. apply flat_map_app. Qed.
Lemma word_eq k j : word k j (Start k j) = [true] /\ word k j (Stop k j) = [false].
Proof. unfold word. rewrite Nat.eqb_refl. now destruct k. Qed.
Lemma word_neq k j k' j' : (k <> k' \/ j <> j') -> word k j (Start k' j') = [] /\ word k j (Stop k' j') = [].
Proof.
  intros H. unfold word. destruct (same k k') eqn:E; [|now split]. apply same_spec in E. destruct H as [H|H]; [contradiction|].
  apply Nat.eqb_neq in H. now rewrite H.
Qed.

(** A task, its future and what is under way for it. *)
Inductive ok : task -> future -> list bool -> Prop :=
  | ok_never : ok Never FPending []
  | ok_queued : ok Queued FPending [true]
  | ok_queued_c : ok Queued FCancelled [true; false]
  | ok_ready : ok Ready FPending []
  | ok_ready_c : ok Ready FCancelled [false]
  | ok_done : ok Done FPending []
  | ok_done_r : ok Done FResult []
  | ok_done_c : ok Done FCancelled [false]
  | ok_done_cc : ok Done FCancelled []
  | ok_cancelled : ok Cancelled FCancelled [].

(** The block in progress. *)
Definition now (s : state) : Prop :=
  let c := current s in
  match thread s with
  | Outside => tasks s Entry c = Never /\ tasks s Exit c = Never
  | Entering _ | EntryTimedOut =>
      tasks s Entry c <> Never /\ futures s Entry c <> FCancelled /\ tasks s Exit c = Never /\ forall m, gens s c <> After m
  | Inside _ m => gens s c = At m /\ tasks s Exit c = Never
  | Leaving _ m | ExitTimedOut m =>
      tasks s Exit c <> Never /\ futures s Exit c <> FCancelled /\
      ((tasks s Exit c = Done /\ gens s c = After m) \/ (tasks s Exit c <> Done /\ gens s c = At m))
  end.
(** A block that is over. *)
Definition past (s : state) (j : nat) (o : outcome) : Prop :=
  match o with
  | NotEntered => futures s Entry j <> FPending /\ tasks s Exit j = Never
  | NotLeft m => futures s Exit j <> FPending /\ (gens s j = At m \/ gens s j = After m)
  | Left m => gens s j = After m
  end.

Record Inv (es : list event) (s : state) : Prop := {
  v_arr : arrived es = map snd (takes s) ++ queue s;
  v_take : forall j m, In (j, m) (takes s) <-> gens s j = At m \/ gens s j = After m;
  v_rel : forall j, In j (releases s) <-> exists m, gens s j = After m;
  v_nd : NoDup (map fst (takes s));
  v_ndr : NoDup (releases s);
  v_ent : forall j, tasks s Entry j = Done <-> gens s j <> Before;
  v_ext : forall j, tasks s Exit j = Done -> exists m, gens s j = After m;
  v_jobs : forall k j, ok (tasks s k j) (futures s k j) (mine k j (jobs s));
  v_close : forall j, In (Close j) (jobs s) -> j < current s;
  v_later : forall k j, current s < j -> tasks s k j = Never;
  v_now : now s;
  v_past : forall j o, nth_error (outcomes s) j = Some o -> past s j o }.

Lemma inv_start : Inv [] start.
Proof.
  constructor; cbn.
  - reflexivity.
  - intros j m. split; [intros []|intros [E|E]; discriminate].
  - intros j. split; [intros []|intros [m E]; discriminate].
  - constructor.
  - constructor.
  - intros j. split; [discriminate|intros H; now contradiction H].
  - discriminate.
  - intros k j. constructor.
  - intros j [].
  - reflexivity.
  - now split.
  - intros [|j] o; discriminate.
Qed.

Lemma arrived_snoc es e : arrived (es ++ [e]) = arrived es ++ match e with Arrive m => [m] | _ => [] end.
Proof. unfold arrived. rewrite flat_map_app. cbn. now rewrite app_nil_r. Qed.

Lemma nth_snoc {A : Type} (l : list A) x j o : nth_error (l ++ [x]) j = Some o ->
  nth_error l j = Some o \/ (j = length l /\ o = x).
Proof.
  intros H. destruct (Nat.lt_ge_cases j (length l)) as [L|L].
  - rewrite nth_error_app1 in H by exact L. now left.
  - rewrite nth_error_app2 in H by exact L. right. destruct (j - length l) as [|n] eqn:E.
    + injection H as <-. split; [lia|reflexivity].
    + destruct n; discriminate H.
Qed.

Lemma past_lt s j o : nth_error (outcomes s) j = Some o -> j < current s.
Proof. intros H. apply nth_error_Some. congruence. Qed.

Lemma nodup_snoc {A : Type} (l : list A) x : NoDup l -> ~ In x l -> NoDup (l ++ [x]).
Proof.
  induction 1 as [|a l N ND IH]; cbn; intros K; [repeat constructor; tauto|].
  constructor; [|apply IH; tauto]. rewrite in_app_iff. cbn. intuition congruence.
Qed.

(** ** Events *)

Lemma inv_arrive es s m : Inv es s -> forall s', step s (Arrive m) = Some s' -> Inv (es ++ [Arrive m]) s'.
Proof.
  intros V s' E. injection E as <-. destruct V. constructor; cbn; try assumption.
  rewrite arrived_snoc, v_arr0, <- app_assoc. reflexivity.
Qed.

(** Only the thread changes. *)
Lemma inv_thread es s e t : Inv es s -> (forall m, e <> Arrive m) -> now (with_thread s t (outcomes s)) ->
  Inv (es ++ [e]) (with_thread s t (outcomes s)).
Proof.
  intros V N W. destruct V. constructor; cbn; try assumption.
  rewrite arrived_snoc, v_arr0. destruct e; rewrite ?app_nil_r; try reflexivity. now destruct (N m).
Qed.

(** The thread changes and a block ends. *)
Lemma inv_end es s e o : Inv es s -> (forall m, e <> Arrive m) -> thread s <> Outside -> past s (current s) o ->
  Inv (es ++ [e]) (with_thread s Outside (outcomes s ++ [o])).
Proof.
  intros V N W P. destruct V. constructor; cbn; try assumption.
  - rewrite arrived_snoc, v_arr0. destruct e; rewrite ?app_nil_r; try reflexivity. now destruct (N m).
  - intros j K. apply v_close0 in K. unfold current in *. cbn. rewrite app_length. cbn. lia.
  - intros k j. unfold current. cbn. rewrite app_length. cbn. intros L. apply v_later0. unfold current. lia.
  - unfold now, current. cbn. rewrite app_length. cbn. split; apply v_later0; unfold current; lia.
  - intros j o' K. apply nth_snoc in K as [K|[-> ->]]; [now apply v_past0|exact P].
Qed.

Lemma inv_hand es s e k t : Inv es s -> (forall m, e <> Arrive m) -> tasks s k (current s) = Never ->
  now (with_thread (hand_over s k) t (outcomes s)) ->
  Inv (es ++ [e]) (with_thread (hand_over s k) t (outcomes s)).
Proof.
  intros V N T W. destruct V. constructor; cbn; try assumption.
  - rewrite arrived_snoc, v_arr0. destruct e; rewrite ?app_nil_r; try reflexivity. now destruct (N m).
  - intros j. rewrite <- v_ent0. destruct (here Entry k j (current s)) as [[<- ->]|H].
    + rewrite upd2_eq, T. split; discriminate.
    + rewrite upd2_neq by exact H. reflexivity.
  - intros j. destruct (here Exit k j (current s)) as [[<- ->]|H].
    + rewrite upd2_eq. discriminate.
    + rewrite upd2_neq by exact H. apply v_ext0.
  - intros k' j. rewrite mine_app. unfold mine at 2. cbn [flat_map]. rewrite app_nil_r.
    destruct (here k' k j (current s)) as [[-> ->]|H].
    + rewrite upd2_eq, (proj1 (word_eq _ _)). specialize (v_jobs0 k (current s)). rewrite T in v_jobs0.
      inversion v_jobs0 as [E1 E2 E3| | | | | | | | |]. cbn. constructor.
    + rewrite upd2_neq by exact H. rewrite (proj1 (word_neq _ _ _ _ H)), app_nil_r. apply v_jobs0.
  - intros j K. apply in_app_or in K as [K|[K|[]]]; [now apply v_close0|discriminate K].
  - intros k' j L. unfold current in L. cbn in L. rewrite upd2_neq; [now apply v_later0|]. right. unfold current. lia.
  - intros j o K. pose proof (past_lt s j o K) as L. specialize (v_past0 j o K). destruct o; cbn in *.
    + rewrite upd2_neq; [exact v_past0|]. right. lia.
    + exact v_past0.
    + exact v_past0.
Qed.

Lemma inv_enter es s lim : Inv es s -> forall s', step s (Enter lim) = Some s' -> Inv (es ++ [Enter lim]) s'.
Proof.
  intros V s' E. cbn [step] in E. destruct (thread s) eqn:T; try discriminate E. injection E as <-.
  pose proof (v_now _ _ V) as W. unfold now in W. rewrite T in W. destruct W as [W1 W2].
  apply inv_hand; [exact V|discriminate|exact W1|]. unfold now. cbn.
  change (current (with_thread (hand_over s Entry) (Entering lim) (outcomes s))) with (current s).
  rewrite upd2_eq, upd2_neq by (left; discriminate). split; [discriminate|]. split; [|split; [exact W2|]].
  - pose proof (v_jobs _ _ V Entry (current s)) as O. rewrite W1 in O. inversion O. congruence.
  - intros m G. assert (K : tasks s Entry (current s) = Done) by (apply (v_ent _ _ V); congruence). congruence.
Qed.

Lemma inv_leave es s : Inv es s -> forall s', step s Leave = Some s' -> Inv (es ++ [Leave]) s'.
Proof.
  intros V s' E. cbn [step] in E. destruct (thread s) as [| | |lim m| |] eqn:T; try discriminate E. injection E as <-.
  pose proof (v_now _ _ V) as W. unfold now in W. rewrite T in W. destruct W as [W1 W2].
  apply inv_hand; [exact V|discriminate|exact W2|]. unfold now. cbn.
  change (current (with_thread (hand_over s Exit) (Leaving lim m) (outcomes s))) with (current s).
  rewrite upd2_eq. split; [discriminate|]. split; [|right; split; [discriminate|exact W1]].
  pose proof (v_jobs _ _ V Exit (current s)) as O. rewrite W2 in O. inversion O. congruence.
Qed.

(** A task that was handed over gets another status short of [Done]. *)
Lemma inv_task es s e k j t r x : Inv es s -> (forall m, e <> Arrive m) -> jobs s = x :: r ->
  (x = Start k j /\ t = Ready) \/ (x = Stop k j /\ tasks s k j = Ready /\ t = Cancelled) ->
  Inv (es ++ [e]) (with_task s k j t r).
Proof.
  intros V N Ej H.
  assert (O : ok t (futures s k j) (mine k j r) /\ (t = Cancelled -> futures s k j = FCancelled) /\
              tasks s k j <> Never /\ tasks s k j <> Done /\ t <> Never /\ t <> Done).
  { pose proof (v_jobs _ _ V k j) as O. rewrite Ej in O. unfold mine in O. cbn [flat_map] in O. fold (mine k j r) in O.
    destruct H as [[-> ->]|[-> [T ->]]].
    - rewrite (proj1 (word_eq k j)) in O. cbn [app] in O. inversion O; subst;
        (split; [constructor|]; split; [discriminate|]; repeat split; discriminate).
    - rewrite (proj2 (word_eq k j)), T in O. cbn [app] in O. inversion O; subst.
      split; [constructor|]. split; [reflexivity|]. rewrite T. repeat split; discriminate. }
  destruct O as [O [Fc [Nn [Nd [Tn Td]]]]].
  assert (Rest : forall k' j', (k' <> k \/ j' <> j) -> mine k' j' (jobs s) = mine k' j' r).
  { intros k' j' D. rewrite Ej. unfold mine. cbn [flat_map]. destruct H as [[-> _]|[-> _]].
    - now rewrite (proj1 (word_neq _ _ _ _ D)).
    - now rewrite (proj2 (word_neq _ _ _ _ D)). }
  destruct V. constructor; cbn; try assumption.
  - rewrite arrived_snoc, v_arr0. destruct e; rewrite ?app_nil_r; try reflexivity. now destruct (N m).
  - intros i. rewrite <- v_ent0. destruct (here Entry k i j) as [[<- ->]|D].
    + rewrite upd2_eq. split; intros K; contradiction.
    + rewrite upd2_neq by exact D. reflexivity.
  - intros i. destruct (here Exit k i j) as [[<- ->]|D].
    + rewrite upd2_eq. intros K; contradiction.
    + rewrite upd2_neq by exact D. apply v_ext0.
  - intros k' i. destruct (here k' k i j) as [[-> ->]|D].
    + rewrite upd2_eq. exact O.
    + rewrite upd2_neq by exact D. rewrite <- Rest by exact D. apply v_jobs0.
  - intros i K. apply v_close0. rewrite Ej. now right.
  - intros k' i L. destruct (here k' k i j) as [[-> ->]|D].
    + exfalso. apply Nn. now apply v_later0.
    + rewrite upd2_neq by exact D. now apply v_later0.
  - unfold now in *. cbn. change (current (with_task s k j t r)) with (current s).
    destruct (thread s).
    + destruct v_now0 as [A B]. rewrite !upd2_neq; [now split| |];
        (destruct (Nat.eq_dec (current s) j) as [<-|]; [left; intros <-; contradiction|now right]).
    + destruct v_now0 as [A [B [C D]]]. assert (X : Exit <> k \/ current s <> j).
      { destruct (Nat.eq_dec (current s) j) as [<-|]; [left; intros <-; contradiction|now right]. }
      rewrite (upd2_neq _ _ _ _ Exit) by exact X. split; [|now split; [exact B|split]].
      destruct (here Entry k (current s) j) as [[<- <-]|Y]; [now rewrite upd2_eq|now rewrite upd2_neq].
    + destruct v_now0 as [A [B [C D]]]. assert (X : Exit <> k \/ current s <> j).
      { destruct (Nat.eq_dec (current s) j) as [<-|]; [left; intros <-; contradiction|now right]. }
      rewrite (upd2_neq _ _ _ _ Exit) by exact X. split; [|now split; [exact B|split]].
      destruct (here Entry k (current s) j) as [[<- <-]|Y]; [now rewrite upd2_eq|now rewrite upd2_neq].
    + destruct v_now0 as [A B]. split; [exact A|]. rewrite upd2_neq; [exact B|].
      destruct (Nat.eq_dec (current s) j) as [<-|]; [left; intros <-; contradiction|now right].
    + destruct v_now0 as [A [B C]]. destruct (here Exit k (current s) j) as [[<- <-]|Y].
      * rewrite upd2_eq. split; [exact Tn|]. split; [exact B|]. right. split; [exact Td|].
        destruct C as [[C _]|[_ C]]; [contradiction|exact C].
      * rewrite upd2_neq by exact Y. now split; [|split].
    + destruct v_now0 as [A [B C]]. destruct (here Exit k (current s) j) as [[<- <-]|Y].
      * rewrite upd2_eq. split; [exact Tn|]. split; [exact B|]. right. split; [exact Td|].
        destruct C as [[C _]|[_ C]]; [contradiction|exact C].
      * rewrite upd2_neq by exact Y. now split; [|split].
  - intros i o K. specialize (v_past0 i o K). destruct o; cbn in *; try exact v_past0.
    destruct v_past0 as [A B]. split; [exact A|]. rewrite upd2_neq; [exact B|].
    destruct (Nat.eq_dec i j) as [->|]; [left; intros <-; contradiction|now right].
Qed.

(** Something handed over is dropped. *)
Lemma inv_jobs es s e js : Inv es s -> (forall m, e <> Arrive m) ->
  (forall k j, ok (tasks s k j) (futures s k j) (mine k j js)) -> (forall j, In (Close j) js -> j < current s) ->
  Inv (es ++ [e]) (with_jobs s js).
Proof.
  intros V N O C. destruct V. constructor; cbn; try assumption.
  rewrite arrived_snoc, v_arr0. destruct e; rewrite ?app_nil_r; try reflexivity. now destruct (N m).
Qed.

(** A generator ends, its exit task with it or because nobody refers to it. *)
Lemma inv_finish es s e s0 j s' : Inv es s -> (forall m, e <> Arrive m) -> finish s0 j = Some s' ->
  (exists r, s0 = with_jobs s r /\ jobs s = Close j :: r) \/
  (s0 = with_task s Exit j Done (jobs s) /\ tasks s Exit j = Ready) ->
  Inv (es ++ [e]) s'.
Proof.
  intros V N F H. unfold finish in F. destruct (gens s0 j) as [|m|m] eqn:G0; try discriminate F. injection F as <-.
  assert (G : gens s j = At m) by (destruct H as [[r [-> _]]|[-> _]]; exact G0).
  assert (L : j < current s \/ (tasks s Exit j = Ready /\ tasks s0 Exit j = Done)).
  { destruct H as [[r [-> E]]|[-> E]]; [left; apply (v_close _ _ V); rewrite E; now left|right].
    split; [exact E|apply upd2_eq]. }
  assert (Te : forall i, tasks s0 Entry i = tasks s Entry i).
  { intros i. destruct H as [[r [-> _]]|[-> _]]; [reflexivity|]. cbn. apply upd2_neq. now left. }
  assert (Tx : forall i, i <> j -> tasks s0 Exit i = tasks s Exit i).
  { intros i D. destruct H as [[r [-> _]]|[-> _]]; [reflexivity|]. cbn. apply upd2_neq. now right. }
  assert (Nx : tasks s Exit j = Never -> tasks s0 Exit j = Never).
  { intros T. destruct H as [[r [-> _]]|[-> E]]; [exact T|congruence]. }
  assert (Oj : forall k i, ok (tasks s0 k i) (futures s k i) (mine k i (jobs s0))).
  { intros k i. destruct H as [[r [-> E]]|[-> E]]; cbn.
    - pose proof (v_jobs _ _ V k i) as O. rewrite E in O. exact O.
    - destruct (here k Exit i j) as [[-> ->]|D].
      + rewrite upd2_eq. pose proof (v_jobs _ _ V Exit j) as O. rewrite E in O. inversion O; constructor.
      + rewrite upd2_neq by exact D. apply (v_jobs _ _ V). }
  assert (Eq : queue s0 = queue s /\ futures s0 = futures s /\ gens s0 = gens s /\ thread s0 = thread s /\ outcomes s0 = outcomes s /\
               takes s0 = takes s /\ releases s0 = releases s).
  { destruct H as [[r [-> _]]|[-> _]]; repeat split. }
  destruct Eq as [E1 [E2 [E3 [E4 [E5 [E6 E7]]]]]].
  assert (Nrel : ~ In j (releases s)).
  { intros K. apply (v_rel _ _ V) in K as [m' K]. congruence. }
  assert (Cl : forall i, In (Close i) (jobs s0) -> i < current s).
  { intros i K. apply (v_close _ _ V). destruct H as [[r [-> E]]|[-> _]]; [rewrite E; now right|exact K]. }
  destruct V. constructor; cbn; rewrite ?E1, ?E2, ?E3, ?E4, ?E5, ?E6, ?E7.
  - rewrite arrived_snoc, v_arr0. destruct e; rewrite ?app_nil_r; try reflexivity. now destruct (N m0).
  - intros i m'. rewrite v_take0. destruct (Nat.eq_dec i j) as [->|D]; [rewrite upd_eq|now rewrite upd_neq].
    rewrite G. split; (intros [K|K]; [|]); try discriminate; [right|left]; congruence.
  - intros i. rewrite in_app_iff, v_rel0. destruct (Nat.eq_dec i j) as [->|D].
    + rewrite upd_eq. split; [intros _; now exists m|intros _; right; now left].
    + rewrite upd_neq by exact D. cbn. split; [intros [K|[K|[]]]; [exact K|congruence]|now left].
  - exact v_nd0.
  - now apply nodup_snoc.
  - intros i. rewrite Te, v_ent0. destruct (Nat.eq_dec i j) as [->|D]; [rewrite upd_eq, G|now rewrite upd_neq].
    split; discriminate.
  - intros i. destruct (Nat.eq_dec i j) as [->|D].
    + intros _. exists m. apply upd_eq.
    + rewrite Tx, upd_neq by exact D. apply v_ext0.
  - exact Oj.
  - intros i K. unfold current. cbn. rewrite ?E5. now apply Cl.
  - intros k i K. unfold current in K. cbn in K. rewrite ?E5 in K. fold (current s) in K.
    destruct k; [rewrite Te; now apply v_later0|]. destruct (Nat.eq_dec i j) as [->|D].
    + apply Nx. now apply v_later0.
    + rewrite Tx by exact D. now apply v_later0.
  - unfold now in *. cbn. rewrite ?E4, ?E2, ?E3. unfold current. cbn. rewrite ?E5. fold (current s).
    assert (Xn : tasks s Exit (current s) = Never -> tasks s0 Exit (current s) = Never).
    { intros T. destruct (Nat.eq_dec (current s) j) as [Ec|D]; [rewrite Ec in *; auto|now rewrite Tx]. }
    assert (Gn : tasks s Exit (current s) = Never -> upd (gens s) j (After m) (current s) = gens s (current s)).
    { intros T. apply upd_neq. intros <-. destruct L as [L|[L _]]; [lia|congruence]. }
    assert (Lv : forall m', ((tasks s Exit (current s) = Done /\ gens s (current s) = After m') \/
                             (tasks s Exit (current s) <> Done /\ gens s (current s) = At m')) ->
       (tasks s0 Exit (current s) = Done /\ upd (gens s) j (After m) (current s) = After m') \/
       (tasks s0 Exit (current s) <> Done /\ upd (gens s) j (After m) (current s) = At m')).
    { intros m' C. destruct (Nat.eq_dec (current s) j) as [Ec|D].
      - rewrite Ec in *. rewrite upd_eq. left. destruct L as [L|[_ L]]; [lia|]. split; [exact L|].
        destruct C as [[_ C]|[_ C]]; congruence.
      - rewrite upd_neq, Tx by exact D. exact C. }
    assert (Xx : tasks s Exit (current s) <> Never -> tasks s0 Exit (current s) <> Never).
    { intros T. destruct (Nat.eq_dec (current s) j) as [Ec|D]; [|now rewrite Tx]. rewrite Ec in *.
      destruct L as [L|[_ L]]; [lia|congruence]. }
    rewrite Te. destruct (thread s).
    + destruct v_now0. split; auto.
    + destruct v_now0 as [A [B [C D]]]. split; [exact A|]. split; [exact B|]. split; [auto|]. now rewrite (Gn C).
    + destruct v_now0 as [A [B [C D]]]. split; [exact A|]. split; [exact B|]. split; [auto|]. now rewrite (Gn C).
    + destruct v_now0 as [A B]. rewrite (Gn B). split; auto.
    + destruct v_now0 as [A [B C]]. split; [auto|]. split; [exact B|]. now apply Lv.
    + destruct v_now0 as [A [B C]]. split; [auto|]. split; [exact B|]. now apply Lv.
  - intros i o K. specialize (v_past0 i o K). destruct o as [|m'|m']; cbn in *; rewrite ?E2, ?E3.
    + destruct v_past0 as [A B]. split; [exact A|]. destruct (Nat.eq_dec i j) as [->|D]; [auto|now rewrite Tx].
    + destruct v_past0 as [A B]. split; [exact A|]. destruct (Nat.eq_dec i j) as [->|D]; [|now rewrite upd_neq].
      rewrite upd_eq. right. destruct B; congruence.
    + destruct (Nat.eq_dec i j) as [->|D]; [|now rewrite upd_neq]. congruence.
Qed.

Lemma inv_loop es s : Inv es s -> forall s', step s Loop = Some s' -> Inv (es ++ [Loop]) s'.
Proof.
  intros V s' E. cbn [step] in E. destruct (jobs s) as [|x r] eqn:J; [discriminate E|].
  assert (Cl : forall j, In (Close j) r -> j < current s) by (intros j K; apply (v_close _ _ V); rewrite J; now right).
  destruct x as [k j|k j|j].
  - injection E as <-. apply (inv_task es s Loop k j Ready r (Start k j)); [exact V|discriminate|exact J|now left].
  - assert (D : tasks s k j <> Ready -> Inv (es ++ [Loop]) (with_jobs s r)).
    { intros T. apply inv_jobs; [exact V|discriminate| |exact Cl]. intros k' i.
      pose proof (v_jobs _ _ V k' i) as O. rewrite J in O. unfold mine in O. cbn [flat_map] in O. fold (mine k' i r) in O.
      destruct (here k' k i j) as [[-> ->]|Dn].
      - rewrite (proj2 (word_eq k j)) in O. cbn [app] in O. inversion O; try congruence; try constructor.
      - now rewrite (proj2 (word_neq _ _ _ _ Dn)) in O. }
    destruct (tasks s k j) eqn:T; injection E as <-; try (apply D; congruence).
    apply (inv_task es s Loop k j Cancelled r (Stop k j)); [exact V|discriminate|exact J|now right].
  - destruct (finish (with_jobs s r) j) as [s1|] eqn:F.
    + injection E as <-. apply (inv_finish es s Loop (with_jobs s r) j s1 V); [discriminate|exact F|]. left. exists r. now split.
    + injection E as <-. apply inv_jobs; [exact V|discriminate| |exact Cl]. intros k' i.
      pose proof (v_jobs _ _ V k' i) as O. rewrite J in O. exact O.
Qed.

Lemma inv_run_entry es s j : Inv es s -> forall s', step s (Run Entry j) = Some s' -> Inv (es ++ [Run Entry j]) s'.
Proof.
  intros V s' E. cbn [step] in E. destruct (tasks s Entry j) eqn:T; try discriminate E.
  destruct (queue s) as [|m q] eqn:Q; [discriminate E|]. injection E as <-.
  assert (G : gens s j = Before).
  { destruct (gens s j) eqn:G; [reflexivity| |];
      (assert (K : tasks s Entry j = Done) by (apply (v_ent _ _ V); congruence); congruence). }
  assert (Nt : ~ In j (map fst (takes s))).
  { intros K. apply in_map_iff in K as [[i m'] [E K]]. cbn in E. subst i. apply (v_take _ _ V) in K. destruct K; congruence. }
  assert (Lj : j <= current s).
  { destruct (Nat.le_gt_cases j (current s)) as [L|L]; [exact L|]. pose proof (v_later _ _ V Entry j L). congruence. }
  assert (Nv : forall i, gens s i <> Before -> i <> j) by congruence.
  destruct V. constructor; cbn.
  - rewrite arrived_snoc, v_arr0, map_app, app_nil_r, Q, <- app_assoc. reflexivity.
  - intros i m'. rewrite in_app_iff, v_take0. destruct (Nat.eq_dec i j) as [->|D].
    + rewrite upd_eq, G. cbn. split.
      * intros [[K|K]|[K|[]]]; try discriminate. left. congruence.
      * intros [K|K]; [|discriminate]. right. left. congruence.
    + rewrite upd_neq by exact D. cbn. split; [intros [K|[K|[]]]; [exact K|congruence]|now left].
  - intros i. rewrite v_rel0. destruct (Nat.eq_dec i j) as [->|D]; [rewrite upd_eq, G|now rewrite upd_neq].
    split; intros [m' K]; discriminate.
  - rewrite map_app. cbn. now apply nodup_snoc.
  - exact v_ndr0.
  - intros i. destruct (Nat.eq_dec i j) as [->|D].
    + rewrite upd2_eq, upd_eq. split; [discriminate|reflexivity].
    + rewrite upd2_neq, upd_neq by auto. apply v_ent0.
  - intros i K. rewrite upd2_neq in K by (left; discriminate). destruct (v_ext0 i K) as [m' K']. exists m'.
    rewrite upd_neq; [exact K'|]. congruence.
  - intros k i. destruct (here k Entry i j) as [[-> ->]|D].
    + rewrite upd2_eq. specialize (v_jobs0 Entry j). rewrite T in v_jobs0. inversion v_jobs0; constructor.
    + rewrite upd2_neq by exact D. apply v_jobs0.
  - exact v_close0.
  - intros k i L. rewrite upd2_neq; [now apply v_later0|]. right. unfold current in *. cbn in *. lia.
  - unfold now in *. cbn. match goal with |- context [current ?x] => change (current x) with (current s) end.
    assert (Xc : upd2 (tasks s) Entry j Done Exit (current s) = tasks s Exit (current s)) by (apply upd2_neq; left; discriminate).
    rewrite Xc. destruct (thread s).
    + destruct v_now0 as [A B]. split; [|exact B]. rewrite upd2_neq; [exact A|]. right. congruence.
    + destruct v_now0 as [A [B [C D]]]. destruct (Nat.eq_dec (current s) j) as [Ec|Dn].
      * rewrite Ec. rewrite upd2_eq, upd_eq. rewrite Ec in *. split; [discriminate|]. split; [exact B|]. split; [exact C|discriminate].
      * rewrite upd2_neq, upd_neq by auto. now split; [|split; [|split]].
    + destruct v_now0 as [A [B [C D]]]. destruct (Nat.eq_dec (current s) j) as [Ec|Dn].
      * rewrite Ec. rewrite upd2_eq, upd_eq. rewrite Ec in *. split; [discriminate|]. split; [exact B|]. split; [exact C|discriminate].
      * rewrite upd2_neq, upd_neq by auto. now split; [|split; [|split]].
    + destruct v_now0 as [A B]. rewrite upd_neq by (apply Nv; congruence). now split.
    + destruct v_now0 as [A [B C]]. rewrite upd_neq; [now split; [|split]|]. apply Nv. destruct C as [[_ C]|[_ C]]; congruence.
    + destruct v_now0 as [A [B C]]. rewrite upd_neq; [now split; [|split]|]. apply Nv. destruct C as [[_ C]|[_ C]]; congruence.
  - intros i o K. specialize (v_past0 i o K). destruct o as [|m'|m']; cbn in *.
    + now rewrite upd2_neq by (left; discriminate).
    + rewrite upd_neq; [exact v_past0|]. apply Nv. destruct v_past0 as [_ [P|P]]; congruence.
    + rewrite upd_neq; [exact v_past0|]. apply Nv. congruence.
Qed.

Lemma inv_run_exit es s j : Inv es s -> forall s', step s (Run Exit j) = Some s' -> Inv (es ++ [Run Exit j]) s'.
Proof.
  intros V s' E. cbn [step] in E. destruct (tasks s Exit j) eqn:T; try discriminate E.
  apply (inv_finish es s (Run Exit j) (with_task s Exit j Done (jobs s)) j s' V); [discriminate|exact E|]. right. now split.
Qed.

(** A pending future changes; if it is cancelled its task is to be stopped. *)
Lemma inv_future es s e k j f js : Inv es s -> (forall m, e <> Arrive m) -> futures s k j = FPending ->
  (tasks s k j = Done /\ f = FResult /\ js = jobs s) -> Inv (es ++ [e]) (with_jobs (with_future s k j f) js).
Proof.
  intros V N Fp [T [-> ->]]. destruct V. constructor; cbn; try assumption.
  - rewrite arrived_snoc, v_arr0. destruct e; rewrite ?app_nil_r; try reflexivity. now destruct (N m).
  - intros k' i. destruct (here k' k i j) as [[-> ->]|D].
    + rewrite upd2_eq. specialize (v_jobs0 k j). rewrite T, Fp in *. inversion v_jobs0. constructor.
    + rewrite upd2_neq by exact D. apply v_jobs0.
  - unfold now in *. cbn. match goal with |- context [current ?x] => change (current x) with (current s) end.
    assert (X : forall k', futures s k' (current s) <> FCancelled -> upd2 (futures s) k j FResult k' (current s) <> FCancelled).
    { intros k' B. destruct (here k' k (current s) j) as [[-> ->]|D]; [rewrite upd2_eq; discriminate|now rewrite upd2_neq]. }
    destruct (thread s); try exact v_now0; destruct v_now0 as [A [B C]]; (split; [exact A|]; split; [now apply X|exact C]).
  - intros i o K. specialize (v_past0 i o K). destruct o as [|m'|m']; cbn in *; try exact v_past0.
    + destruct v_past0 as [A B]. split; [|exact B]. destruct (here Entry k i j) as [[<- ->]|D]; [rewrite upd2_eq; discriminate|now rewrite upd2_neq].
    + destruct v_past0 as [A B]. split; [|exact B]. destruct (here Exit k i j) as [[<- ->]|D]; [rewrite upd2_eq; discriminate|now rewrite upd2_neq].
Qed.

Lemma inv_deliver es s k j : Inv es s -> forall s', step s (Deliver k j) = Some s' -> Inv (es ++ [Deliver k j]) s'.
Proof.
  intros V s' E. cbn [step] in E. destruct (tasks s k j) eqn:T; try discriminate E.
  destruct (futures s k j) eqn:F; try discriminate E. injection E as <-.
  exact (inv_future es s (Deliver k j) k j FResult (jobs s) V ltac:(discriminate) F (conj T (conj eq_refl eq_refl))).
Qed.

Lemma inv_timeout es s : Inv es s -> forall s', step s TimeOut = Some s' -> Inv (es ++ [TimeOut]) s'.
Proof.
  intros V s' E. cbn [step] in E. pose proof (v_now _ _ V) as W. unfold now in W.
  destruct (thread s) as [|[]| | |[] m|] eqn:T; try discriminate E.
  - destruct (futures s Entry (current s)) eqn:F; try discriminate E. injection E as <-. rewrite <- F in W.
    apply inv_thread; [exact V|discriminate|exact W].
  - destruct (futures s Exit (current s)) eqn:F; try discriminate E. injection E as <-. rewrite <- F in W.
    apply inv_thread; [exact V|discriminate|exact W].
Qed.

(** Giving up. *)
Lemma inv_cancel_end es s k o : Inv es s -> thread s <> Outside -> tasks s k (current s) <> Never ->
  futures s k (current s) <> FCancelled ->
  (k = Entry /\ o = NotEntered /\ tasks s Exit (current s) = Never \/
   k = Exit /\ exists m, o = NotLeft m /\ (gens s (current s) = At m \/ gens s (current s) = After m)) ->
  Inv (es ++ [GiveUp]) (with_thread (cancel s k) Outside (outcomes s ++ [o])).
Proof.
  intros V T Tn Fn O. unfold cancel. destruct (futures s k (current s)) eqn:F.
  - destruct V. constructor; cbn; try assumption.
    + now rewrite arrived_snoc, app_nil_r.
    + intros k' i. rewrite mine_app. unfold mine at 2. cbn [flat_map]. rewrite app_nil_r.
      destruct (here k' k i (current s)) as [[-> ->]|D].
      * rewrite upd2_eq, (proj2 (word_eq _ _)). specialize (v_jobs0 k (current s)). rewrite F in v_jobs0.
        inversion v_jobs0; try congruence; constructor.
      * rewrite upd2_neq by exact D. rewrite (proj2 (word_neq _ _ _ _ D)), app_nil_r. apply v_jobs0.
    + intros i K. unfold current. cbn. rewrite app_length. cbn. apply in_app_or in K as [K|[K|[]]]; [|discriminate K].
      apply v_close0 in K. unfold current in K. lia.
    + intros k' i. unfold current. cbn. rewrite app_length. cbn. intros L. apply v_later0. unfold current. lia.
    + unfold now, current. cbn. rewrite app_length. cbn. split; apply v_later0; unfold current; lia.
    + intros i o' K. apply nth_snoc in K as [K|[-> ->]].
      * pose proof (past_lt _ _ _ K) as L. specialize (v_past0 i o' K). destruct o'; cbn in *; try exact v_past0;
          (rewrite upd2_neq; [exact v_past0|right; lia]).
      * destruct O as [[-> [-> X]]|[-> [m [-> X]]]]; cbn; fold (current s); rewrite upd2_eq; (split; [discriminate|exact X]).
  - apply inv_end; [exact V|discriminate|exact T|].
    destruct O as [[-> [-> X]]|[-> [m [-> X]]]]; cbn; rewrite F; (split; [discriminate|exact X]).
  - congruence.
Qed.

Lemma inv_giveup es s : Inv es s -> forall s', step s GiveUp = Some s' -> Inv (es ++ [GiveUp]) s'.
Proof.
  intros V s' E. cbn [step] in E. pose proof (v_now _ _ V) as W. unfold now in W.
  destruct (thread s) as [| | | | |m] eqn:T; try discriminate E; injection E as <-.
  - destruct W as [A [B [C D]]]. apply inv_cancel_end; [exact V|congruence|exact A|exact B|]. left. auto.
  - destruct W as [A [B C]]. apply inv_cancel_end; [exact V|congruence|exact A|exact B|]. right. split; [reflexivity|].
    exists m. split; [reflexivity|]. destruct C as [[_ C]|[_ C]]; auto.
Qed.

Lemma inv_return es s : Inv es s -> forall s', step s Return = Some s' -> Inv (es ++ [Return]) s'.
Proof.
  intros V s' E. cbn [step] in E. pose proof (v_now _ _ V) as W. unfold now in W.
  destruct (thread s) as [|lim| | |lim m|] eqn:T; try discriminate E.
  - destruct (futures s Entry (current s)) eqn:F; try discriminate E.
    destruct (gens s (current s)) as [|m|m] eqn:G; try discriminate E. injection E as <-.
    apply inv_thread; [exact V|discriminate|]. unfold now. cbn.
    match goal with |- context [current ?x] => change (current x) with (current s) end. split; [exact G|apply W].
  - destruct (futures s Exit (current s)) eqn:F; try discriminate E. injection E as <-.
    apply inv_end; [exact V|discriminate|congruence|]. cbn. destruct W as [_ [_ [[_ C]|[C _]]]]; [exact C|].
    exfalso. apply C. pose proof (v_jobs _ _ V Exit (current s)) as O. rewrite F in O. inversion O. reflexivity.
Qed.

Lemma inv_collect es s j : Inv es s -> forall s', step s (Collect j) = Some s' -> Inv (es ++ [Collect j]) s'.
Proof.
  intros V s' E. cbn [step] in E. destruct (j <? current s) eqn:L; [|discriminate E]. apply Nat.ltb_lt in L.
  assert (K : Inv (es ++ [Collect j]) (with_jobs s (jobs s ++ [Close j]))).
  { apply inv_jobs; [exact V|discriminate| |].
    - intros k i. rewrite mine_app. change (mine k i [Close j]) with (@nil bool). rewrite app_nil_r. apply (v_jobs _ _ V).
    - intros i K. apply in_app_or in K as [K|[K|[]]]; [now apply (v_close _ _ V)|]. now injection K as <-. }
  destruct (tasks s Entry j); try discriminate E. destruct (tasks s Exit j); try discriminate E; injection E as <-; exact K.
Qed.

Lemma inv_step es s e s' : Inv es s -> step s e = Some s' -> Inv (es ++ [e]) s'.
Proof.
  intros V E. destruct e as [m|lim| | |k j|k j| | | |j].
  - now apply (inv_arrive es s).
  - now apply (inv_enter es s).
  - now apply (inv_leave es s).
  - now apply (inv_loop es s).
  - destruct k; [now apply (inv_run_entry es s)|now apply (inv_run_exit es s)].
  - now apply (inv_deliver es s).
  - now apply (inv_timeout es s).
  - now apply (inv_giveup es s).
  - now apply (inv_return es s).
  - now apply (inv_collect es s).
Qed.

Lemma inv_run es : forall s, history es s -> Inv es s.
Proof.
  induction es as [|e es IH] using rev_ind; intros s H.
  - injection H as <-. apply inv_start.
  - apply steps_snoc in H as [s1 [H E]]. exact (inv_step es s1 e s (IH s1 H) E).
Qed.

(** ** What follows *)

Lemma holding_at es s j m : Inv es s -> (holding s j m <-> gens s j = At m).
Proof.
  intros V. unfold holding. rewrite (v_take _ _ V), (v_rel _ _ V). split.
  - intros [[G|G] N]; [exact G|]. exfalso. apply N. now exists m.
  - intros G. split; [now left|]. intros [m' K]. congruence.
Qed.

Lemma fresh_gen es s j : Inv es s -> tasks s Entry j <> Done -> gens s j = Before.
Proof.
  intros V T. destruct (gens s j) eqn:G; [reflexivity| |]; exfalso; apply T, (v_ent _ _ V); congruence.
Qed.

Lemma held_inside es s lim m : history es s -> thread s = Inside lim m -> holding s (current s) m.
Proof.
  intros H T. pose proof (inv_run _ _ H) as V. apply (holding_at _ _ _ _ V).
  pose proof (v_now _ _ V) as W. unfold now in W. rewrite T in W. apply W.
Qed.

Lemma held_by es s j m : history es s -> holding s j m -> (j = current s /\ thread s <> Outside) \/ timed_out s j.
Proof.
  intros H K. pose proof (inv_run _ _ H) as V. apply (holding_at _ _ _ _ V) in K.
  destruct (Nat.lt_trichotomy j (current s)) as [L|[->|L]].
  - right. unfold timed_out. destruct (nth_error (outcomes s) j) as [o|] eqn:E.
    + pose proof (v_past _ _ V j o E) as P. destruct o as [|m'|m']; [now left|right; now exists m'|]. cbn in P. congruence.
    + apply nth_error_None in E. unfold current in L. lia.
  - left. split; [reflexivity|]. intros T. pose proof (v_now _ _ V) as W. unfold now in W. rewrite T in W.
    destruct W as [W _]. rewrite (fresh_gen es s _ V) in K; [discriminate|congruence].
  - exfalso. rewrite (fresh_gen es s j V) in K; [discriminate|]. rewrite (v_later _ _ V Entry j L). discriminate.
Qed.

Lemma no_timeouts_run es : forall s, history es s -> no_timeouts es ->
  thread s <> EntryTimedOut /\ (forall m, thread s <> ExitTimedOut m) /\ forall j, ~ timed_out s j.
Proof.
  induction es as [|e es IH] using rev_ind; intros s H N.
  - injection H as <-. cbn. repeat split; try discriminate. intros j [K|[m K]]; destruct j; discriminate K.
  - apply steps_snoc in H as [s1 [H E]].
    destruct (IH s1 H) as [A [B C]]; [intros K; apply N, in_or_app; now left|].
    assert (Ne : e <> TimeOut) by (intros ->; apply N, in_or_app; right; now left).
    assert (Same : thread s = thread s1 -> outcomes s = outcomes s1 ->
      thread s <> EntryTimedOut /\ (forall m, thread s <> ExitTimedOut m) /\ forall j, ~ timed_out s j).
    { intros X Y. unfold timed_out. rewrite X, Y. auto. }
    assert (Thr : outcomes s = outcomes s1 -> thread s <> EntryTimedOut -> (forall m, thread s <> ExitTimedOut m) ->
      thread s <> EntryTimedOut /\ (forall m, thread s <> ExitTimedOut m) /\ forall j, ~ timed_out s j).
    { intros X Y Z. unfold timed_out. rewrite X. auto. }
    destruct e as [m|lim| | |k j|k j| | | |j]; cbn [step] in E.
    + injection E as <-. now apply Same.
    + destruct (thread s1); try discriminate E. injection E as <-. apply Thr; [reflexivity|discriminate|discriminate].
    + destruct (thread s1); try discriminate E. injection E as <-. apply Thr; [reflexivity|discriminate|discriminate].
    + destruct (jobs s1) as [|[k j|k j|j] r]; try discriminate E.
      * injection E as <-. now apply Same.
      * destruct (tasks s1 k j); injection E as <-; now apply Same.
      * unfold finish in E. cbn in E. destruct (gens s1 j); injection E as <-; now apply Same.
    + destruct k.
      * destruct (tasks s1 Entry j); try discriminate E. destruct (queue s1); [discriminate E|]. injection E as <-. now apply Same.
      * destruct (tasks s1 Exit j); try discriminate E. unfold finish in E. cbn in E. destruct (gens s1 j); try discriminate E.
        injection E as <-. now apply Same.
    + destruct (tasks s1 k j); try discriminate E. destruct (futures s1 k j); try discriminate E. injection E as <-. now apply Same.
    + contradiction.
    + destruct (thread s1) eqn:T; try discriminate E; [now contradiction A|now destruct (B m)].
    + destruct (thread s1) eqn:T; try discriminate E.
      * destruct (futures s1 Entry (current s1)); try discriminate E. destruct (gens s1 (current s1)); try discriminate E.
        injection E as <-. apply Thr; [reflexivity|discriminate|discriminate].
      * destruct (futures s1 Exit (current s1)); try discriminate E. injection E as <-. cbn. repeat split; try discriminate.
        intros j [K|[m' K]]; cbn in K; apply nth_snoc in K as [K|[_ K]]; try discriminate K;
          apply (C j); [now left|right; now exists m'].
    + destruct (j <? current s1); [|discriminate E]. destruct (tasks s1 Entry j); try discriminate E.
      destruct (tasks s1 Exit j); try discriminate E; injection E as <-; now apply Same.
Qed.

(** ** The loop catches up *)

Lemma loop_once s x r : jobs s = x :: r -> exists s', step s Loop = Some s' /\ jobs s' = r /\ thread s' = thread s /\
  outcomes s' = outcomes s /\ queue s' = queue s /\ futures s' = futures s /\ takes s' = takes s.
Proof.
  intros J. cbn [step]. rewrite J. destruct x as [k j|k j|j].
  - eexists. repeat split.
  - destruct (tasks s k j); eexists; repeat split.
  - unfold finish. cbn. destruct (gens s j); eexists; repeat split.
Qed.

Lemma drain : forall r s, jobs s = r -> exists s', steps s (repeat Loop (length r)) = Some s' /\ jobs s' = [] /\ thread s' = thread s /\
  outcomes s' = outcomes s /\ queue s' = queue s /\ futures s' = futures s /\ takes s' = takes s.
Proof.
  induction r as [|x r IH]; intros s J.
  - exists s. cbn. repeat split. exact J.
  - destruct (loop_once s x r J) as [s1 [E [J1 [A [B [C [D F]]]]]]]. destruct (IH s1 J1) as [s2 [E2 [J2 [A2 [B2 [C2 [D2 F2]]]]]]].
    exists s2. cbn [length repeat steps]. rewrite E. repeat split; [exact E2|exact J2|congruence..].
Qed.

Lemma loops_go n : forallb goes_on (repeat Loop n) = true /\ forallb cleans (repeat Loop n) = true.
Proof. induction n as [|n [IH1 IH2]]; cbn; auto. Qed.

Lemma history_app es s es' s' : history es s -> steps s es' = Some s' -> history (es ++ es') s'.
Proof. unfold history. intros H E. now rewrite steps_app, H. Qed.

Lemma leaves es s lim m : history es s -> thread s = Leaving lim m ->
  exists es' s', forallb goes_on es' = true /\ steps s es' = Some s' /\ thread s' = Outside /\
    outcomes s' = outcomes s ++ [Left m] /\ In (current s) (releases s').
Proof.
  intros H T. destruct (drain _ s eq_refl) as [s1 [E1 [J1 [T1 [O1 [Q1 [F1 K1]]]]]]].
  pose proof (history_app _ _ _ _ H E1) as H1. pose proof (inv_run _ _ H1) as V1.
  assert (C1 : current s1 = current s) by (unfold current; congruence).
  pose proof (v_now _ _ V1) as W. unfold now in W. rewrite T1, T, C1 in W. destruct W as [A [B C]].
  (* from a state in which the exit task has run *)
  assert (G : forall s2 es2, history es2 s2 -> thread s2 = Leaving lim m -> outcomes s2 = outcomes s ->
     tasks s2 Exit (current s) = Done ->
     exists es' s', forallb goes_on es' = true /\ steps s2 es' = Some s' /\ thread s' = Outside /\
       outcomes s' = outcomes s ++ [Left m] /\ In (current s) (releases s')).
  { intros s2 es2 H2 T2 O2 D2. pose proof (inv_run _ _ H2) as V2.
    assert (C2 : current s2 = current s) by (unfold current; congruence).
    assert (R2 : In (current s) (releases s2)) by (apply (v_rel _ _ V2), (v_ext _ _ V2); exact D2).
    pose proof (v_now _ _ V2) as W2. unfold now in W2. rewrite T2, C2 in W2. destruct W2 as [_ [W2 _]].
    destruct (futures s2 Exit (current s)) eqn:F2; [| |congruence].
    - exists [Deliver Exit (current s); Return].
      assert (S1 : step s2 (Deliver Exit (current s)) = Some (with_future s2 Exit (current s) FResult))
        by (cbn [step]; now rewrite D2, F2).
      assert (S2 : step (with_future s2 Exit (current s) FResult) Return =
        Some (with_thread (with_future s2 Exit (current s) FResult) Outside (outcomes s2 ++ [Left m]))).
      { cbn [step]. cbn [thread with_future]. rewrite T2.
        change (current (with_future s2 Exit (current s) FResult)) with (current s2). rewrite C2. cbn [futures with_future]. now rewrite upd2_eq. }
      eexists. split; [reflexivity|]. cbn [steps]. rewrite S1, S2. split; [reflexivity|]. cbn. rewrite O2. auto.
    - exists [Return].
      assert (S2 : step s2 Return = Some (with_thread s2 Outside (outcomes s2 ++ [Left m])))
        by (cbn [step]; now rewrite T2, C2, F2).
      eexists. split; [reflexivity|]. cbn [steps]. rewrite S2. split; [reflexivity|]. cbn. rewrite O2. auto. }
  pose proof (v_jobs _ _ V1 Exit (current s)) as Ok. rewrite J1 in Ok. change (mine Exit (current s) []) with (@nil bool) in Ok.
  destruct (tasks s1 Exit (current s)) eqn:Tx; [congruence|inversion Ok| | |].
  - destruct C as [[C _]|[_ C]]; [discriminate C|].
    assert (S1 : exists s2, step s1 (Run Exit (current s)) = Some s2 /\ thread s2 = thread s1 /\ outcomes s2 = outcomes s1 /\
        tasks s2 Exit (current s) = Done).
    { cbn [step]. rewrite Tx. unfold finish. cbn. rewrite C. eexists. split; [reflexivity|]. cbn. repeat split. apply upd2_eq. }
    destruct S1 as [s2 [S1 [T2 [O2 D2]]]].
    assert (H2 : history ((es ++ repeat Loop (length (jobs s))) ++ [Run Exit (current s)]) s2).
    { apply (history_app _ s1); [exact H1|]. cbn [steps]. now rewrite S1. }
    destruct (G s2 _ H2) as [es' [s' [X1 [X2 [X3 [X4 X5]]]]]]; [congruence|congruence|exact D2|].
    exists (repeat Loop (length (jobs s)) ++ Run Exit (current s) :: es'), s'. split.
    { rewrite forallb_app. rewrite (proj1 (loops_go _)). exact X1. }
    split; [|now split; [|split]]. rewrite steps_app, E1. cbn [steps]. rewrite S1. exact X2.
  - destruct (G s1 _ H1) as [es' [s' [X1 [X2 [X3 [X4 X5]]]]]]; [congruence|congruence|exact Tx|].
    exists (repeat Loop (length (jobs s)) ++ es'), s'. split.
    { rewrite forallb_app. rewrite (proj1 (loops_go _)). exact X1. }
    split; [|now split; [|split]]. now rewrite steps_app, E1.
  - inversion Ok as [| | | | | | | | |E0 E2 E3]. congruence.
Qed.

Lemma enters es s lim : history es s -> thread s = Entering lim -> queue s <> [] ->
  exists es' s' m, forallb goes_on es' = true /\ steps s es' = Some s' /\ thread s' = Inside lim m.
Proof.
  intros H T Nq. destruct (drain _ s eq_refl) as [s1 [E1 [J1 [T1 [O1 [Q1 [F1 K1]]]]]]].
  pose proof (history_app _ _ _ _ H E1) as H1. pose proof (inv_run _ _ H1) as V1.
  assert (C1 : current s1 = current s) by (unfold current; congruence).
  pose proof (v_now _ _ V1) as W. unfold now in W. rewrite T1, T, C1 in W. destruct W as [A [B [_ C]]].
  assert (G : forall s2 es2, history es2 s2 -> thread s2 = Entering lim -> current s2 = current s ->
     tasks s2 Entry (current s) = Done ->
     exists es' s' m, forallb goes_on es' = true /\ steps s2 es' = Some s' /\ thread s' = Inside lim m).
  { intros s2 es2 H2 T2 C2 D2. pose proof (inv_run _ _ H2) as V2.
    pose proof (v_now _ _ V2) as W2. unfold now in W2. rewrite T2, C2 in W2. destruct W2 as [_ [W2 [_ W3]]].
    assert (Gt : exists m, gens s2 (current s) = At m).
    { apply (v_ent _ _ V2) in D2. destruct (gens s2 (current s)) as [|m|m]; [congruence|now exists m|now destruct (W3 m)]. }
    destruct Gt as [m Gt].
    destruct (futures s2 Entry (current s)) eqn:F2; [| |congruence].
    - exists [Deliver Entry (current s); Return].
      assert (S1 : step s2 (Deliver Entry (current s)) = Some (with_future s2 Entry (current s) FResult))
        by (cbn [step]; now rewrite D2, F2).
      assert (S2 : step (with_future s2 Entry (current s) FResult) Return =
        Some (with_thread (with_future s2 Entry (current s) FResult) (Inside lim m) (outcomes s2))).
      { cbn [step]. cbn [thread with_future]. rewrite T2.
        change (current (with_future s2 Entry (current s) FResult)) with (current s2). rewrite C2. cbn [futures gens with_future]. now rewrite upd2_eq, Gt. }
      eexists _, m. split; [reflexivity|]. cbn [steps]. rewrite S1, S2. split; reflexivity.
    - exists [Return].
      assert (S2 : step s2 Return = Some (with_thread s2 (Inside lim m) (outcomes s2)))
        by (cbn [step]; now rewrite T2, C2, F2, Gt).
      eexists _, m. split; [reflexivity|]. cbn [steps]. rewrite S2. split; reflexivity. }
  pose proof (v_jobs _ _ V1 Entry (current s)) as Ok. rewrite J1 in Ok. change (mine Entry (current s) []) with (@nil bool) in Ok.
  destruct (tasks s1 Entry (current s)) eqn:Tx; [congruence|inversion Ok| | |].
  - assert (S1 : exists s2, step s1 (Run Entry (current s)) = Some s2 /\ thread s2 = thread s1 /\ outcomes s2 = outcomes s1 /\
        tasks s2 Entry (current s) = Done).
    { cbn [step]. rewrite Tx. destruct (queue s1) as [|m q] eqn:Eq; [congruence|]. eexists. split; [reflexivity|]. cbn. repeat split. apply upd2_eq. }
    destruct S1 as [s2 [S1 [T2 [O2 D2]]]].
    assert (H2 : history ((es ++ repeat Loop (length (jobs s))) ++ [Run Entry (current s)]) s2).
    { apply (history_app _ s1); [exact H1|]. cbn [steps]. now rewrite S1. }
    destruct (G s2 _ H2) as [es' [s' [m [X1 [X2 X3]]]]]; [congruence|unfold current in *; congruence|exact D2|].
    exists (repeat Loop (length (jobs s)) ++ Run Entry (current s) :: es'), s', m. split.
    { rewrite forallb_app. rewrite (proj1 (loops_go _)). exact X1. }
    split; [|exact X3]. rewrite steps_app, E1. cbn [steps]. rewrite S1. exact X2.
  - destruct (G s1 _ H1) as [es' [s' [m [X1 [X2 X3]]]]]; [congruence|exact C1|exact Tx|].
    exists (repeat Loop (length (jobs s)) ++ es'), s', m. split.
    { rewrite forallb_app. rewrite (proj1 (loops_go _)). exact X1. }
    split; [|exact X3]. now rewrite steps_app, E1.
  - inversion Ok as [| | | | | | | | |E0 E2 E3]. congruence.
Qed.

Lemma cleaned es s : history es s -> thread s = Outside ->
  exists es' s', forallb cleans es' = true /\ steps s es' = Some s' /\ thread s' = Outside /\ outcomes s' = outcomes s /\
    queue s' = queue s /\ takes s' = takes s /\ forall j m, ~ holding s' j m.
Proof.
  intros H T. destruct (drain _ s eq_refl) as [s1 [E1 [J1 [T1 [O1 [Q1 [F1 K1]]]]]]].
  pose proof (history_app _ _ _ _ H E1) as H1.
  assert (G : forall n, n <= current s -> exists es' s', forallb cleans es' = true /\ steps s1 es' = Some s' /\ jobs s' = [] /\
    thread s' = Outside /\ outcomes s' = outcomes s /\ queue s' = queue s /\ takes s' = takes s /\
    forall j m, j < n -> gens s' j <> At m).
  { induction n as [|n IH]; intros L.
    - exists [], s1. cbn. repeat split; try congruence. intros j m Lj. lia.
    - destruct IH as [es2 [s2 [X1 [X2 [X3 [X4 [X5 [X6 [X7 X8]]]]]]]]]; [lia|].
      destruct (gens s2 n) as [|m|m] eqn:Gn.
      + exists es2, s2. repeat split; try assumption. intros j m Lj. destruct (Nat.eq_dec j n) as [->|D]; [congruence|apply X8; lia].
      + pose proof (history_app _ _ _ _ H1 X2) as H2. pose proof (inv_run _ _ H2) as V2.
        assert (Dn : tasks s2 Entry n = Done) by (apply (v_ent _ _ V2); congruence).
        assert (C2 : current s2 = current s) by (unfold current; congruence).
        assert (Xn : tasks s2 Exit n = Never \/ tasks s2 Exit n = Done \/ tasks s2 Exit n = Cancelled).
        { destruct (nth_error (outcomes s2) n) as [o|] eqn:En.
          2:{ apply nth_error_None in En. unfold current in *. lia. }
          pose proof (v_past _ _ V2 n o En) as P. destruct o as [|m'|m']; cbn in P; [left; apply P| |congruence].
          pose proof (v_jobs _ _ V2 Exit n) as Ok. rewrite X3 in Ok. change (mine Exit n []) with (@nil bool) in Ok.
          destruct P as [P _]. inversion Ok; try congruence; auto. }
        assert (S1 : step s2 (Collect n) = Some (with_jobs s2 [Close n])).
        { cbn [step]. rewrite C2. replace (n <? current s) with true by (symmetry; apply Nat.ltb_lt; lia).
          rewrite Dn, X3. destruct Xn as [->|[->| ->]]; reflexivity. }
        assert (S2 : exists s3, step (with_jobs s2 [Close n]) Loop = Some s3 /\ jobs s3 = [] /\ thread s3 = thread s2 /\ outcomes s3 = outcomes s2 /\
           queue s3 = queue s2 /\ takes s3 = takes s2 /\ gens s3 = upd (gens s2) n (After m)).
        { cbn [step]. cbn [jobs with_jobs]. unfold finish. cbn. rewrite Gn. eexists. repeat split. }
        destruct S2 as [s3 [S2 [Y1 [Y2 [Y3 [Y4 [Y5 Y6]]]]]]].
        exists (es2 ++ [Collect n; Loop]), s3. split; [rewrite forallb_app, X1; reflexivity|].
        split; [rewrite steps_app, X2; cbn [steps]; now rewrite S1, S2|]. repeat split; try congruence.
        intros j m' Lj. rewrite Y6. destruct (Nat.eq_dec j n) as [->|D]; [rewrite upd_eq; discriminate|].
        rewrite upd_neq by exact D. apply X8. lia.
      + exists es2, s2. repeat split; try assumption. intros j m' Lj. destruct (Nat.eq_dec j n) as [->|D]; [congruence|apply X8; lia]. }
  destruct (G (current s) (Nat.le_refl _)) as [es2 [s2 [X1 [X2 [X3 [X4 [X5 [X6 [X7 X8]]]]]]]]].
  exists (repeat Loop (length (jobs s)) ++ es2), s2. split; [rewrite forallb_app, (proj2 (loops_go _)); exact X1|].
  split; [now rewrite steps_app, E1|]. repeat split; try assumption.
  intros j m K. pose proof (history_app _ _ _ _ H1 X2) as H2. pose proof (inv_run _ _ H2) as V2.
  pose proof K as K'. apply (holding_at _ _ _ _ V2) in K'. destruct (held_by _ _ _ _ H2 K) as [[_ Bad]|Tm]; [contradiction|].
  apply (X8 j m); [|exact K']. unfold timed_out in Tm. rewrite X5 in Tm. unfold current. apply nth_error_Some.
  destruct Tm as [Tm|[m' Tm]]; congruence.
Qed.
