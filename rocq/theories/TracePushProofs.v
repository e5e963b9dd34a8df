(* The invariants of the trace push. *)

From Coq Require Import List Arith Bool Lia.
From Verif Require Import TracePushModel TracePushSpec.
Import ListNotations.

Section Proofs.
Context (cap limit : nat).
Notation step := (step cap limit).
Notation run := (run cap limit).

(** ** Lists *)

Inductive sub : list nat -> list nat -> Prop :=
| sub_nil : forall l, sub [] l
| sub_keep : forall x l l', sub l l' -> sub (x :: l) (x :: l')
| sub_drop : forall x l l', sub l l' -> sub l (x :: l').

Lemma sub_refl l : sub l l.
Proof. induction l; constructor; auto. Qed.
Lemma sub_app a a' b b' : sub a a' -> sub b b' -> sub (a ++ b) (a' ++ b').
Proof. intros H K. induction H; cbn; [|constructor; auto|constructor; auto]. induction l; cbn; [exact K|constructor; auto]. Qed.
Lemma sub_in l l' x : sub l l' -> In x l -> In x l'.
Proof. intros H. induction H; cbn; intuition. Qed.
Lemma sub_increasing l l' : sub l l' -> increasing l' -> increasing l.
Proof.
  intros H. induction H; cbn; auto; [|tauto]. intros (A & B). split; [|auto]. intros y Y. apply A. eapply sub_in; eauto.
Qed.
Lemma sub_skipn n l : sub (skipn n l) l.
Proof. revert n. induction l as [|x l IH]; intros [|n]; cbn; try apply sub_refl; constructor; auto. Qed.
Lemma sub_firstn n l : sub (firstn n l) l.
Proof. revert n. induction l as [|x l IH]; intros [|n]; cbn; constructor; auto. Qed.

Lemma increasing_app l l' : increasing (l ++ l') <-> increasing l /\ increasing l' /\ forall x y, In x l -> In y l' -> x < y.
Proof.
  induction l as [|a l IH]; cbn; [intuition|]. rewrite IH. split.
  - intros (A & B & C & D). repeat split; auto; [intros y Y; apply A, in_or_app; auto|]. intros x y [<-|X] Y; [apply A, in_or_app; auto|auto].
  - intros ((A & B) & C & D). repeat split; auto. intros y Y. apply in_app_or in Y. destruct Y; [auto|apply D; auto].
Qed.
Lemma increasing_snoc l n : increasing l -> (forall x, In x l -> x < n) -> increasing (l ++ [n]).
Proof. intros A B. apply increasing_app. repeat split; auto; [intros y []|]. intros x y X [<-|[]]. auto. Qed.
Lemma increasing_NoDup l : increasing l -> NoDup l.
Proof. induction l as [|x l IH]; cbn; [constructor|]. intros (A & B). constructor; [|auto]. intros H. specialize (A x H). lia. Qed.

Lemma nth_set_same {A} i (x : A) l y : nth_error l i = Some y -> nth_error (set_nth i x l) i = Some x.
Proof. revert i. induction l as [|z l IH]; intros [|i]; cbn; try discriminate; auto. Qed.
Lemma nth_set_other {A} i j (x : A) l : i <> j -> nth_error (set_nth i x l) j = nth_error l j.
Proof. revert i j. induction l as [|z l IH]; intros [|i] [|j]; cbn; auto; try congruence. Qed.

(** ** Tasks *)

Definition alive (l : list task) (i : nat) : Prop := exists x, nth_error l i = Some x /\ tp x <> TDone /\ cancelled x = false.
Definition dying (l : list task) (i : nat) : Prop := exists x, nth_error l i = Some x /\ cancelled x = true.

Record tinv (s : st) : Prop := {
  t_handle : forall i, alive (tasks s) i <-> handle s = Some i;
  t_io : forall i, io s = IOAwait i -> dying (tasks s) i;
  t_close : forall i, closing s = CAwaitTask i -> dying (tasks s) i;
  t_drain : forall i, (exists x, nth_error (tasks s) i = Some x /\ tp x = TDrain) <-> lock s = Some (ATask i);
  t_iodrain : io s = IODrain <-> lock s = Some TheIo;
  t_iocancel : io_cancel s = true -> io s = IORead \/ io s = IOWrite \/ io s = IODrain;
  t_off : on s = false -> pend s = [];
  t_on : on s = true -> closing s = CNo -> conn s = true -> exists i, handle s = Some i;
  t_ttl : on s = false -> expires s = None;
  t_early : io_cancel s = true -> closing s <> CNo
}.

Lemma tinv_init : tinv init.
Proof.
  constructor; cbn; try discriminate; auto.
  - intros i. split; [|discriminate]. intros (x & H & _). destruct i; discriminate.
  - intros i. split; [|discriminate]. intros (x & H & _). destruct i; discriminate.
  - split; discriminate.
Qed.

Lemma alive_set l i x j y : nth_error l i = Some y -> (alive (set_nth i x l) j <-> (j = i /\ tp x <> TDone /\ cancelled x = false) \/ (j <> i /\ alive l j)).
Proof.
  intros H. unfold alive. destruct (Nat.eq_dec j i) as [->|N].
  - rewrite (nth_set_same _ _ _ _ H). split; [intros (z & [= <-] & K); auto|intros [(_ & K)|(K & _)]; [eauto|congruence]].
  - rewrite nth_set_other by congruence. intuition.
Qed.
Lemma dying_set l i x j y : nth_error l i = Some y -> (dying (set_nth i x l) j <-> (j = i /\ cancelled x = true) \/ (j <> i /\ dying l j)).
Proof.
  intros H. unfold dying. destruct (Nat.eq_dec j i) as [->|N].
  - rewrite (nth_set_same _ _ _ _ H). split; [intros (z & [= <-] & K); auto|intros [(_ & K)|(K & _)]; [eauto|congruence]].
  - rewrite nth_set_other by congruence. intuition.
Qed.
Lemma drain_set l i x j y : nth_error l i = Some y -> ((exists z, nth_error (set_nth i x l) j = Some z /\ tp z = TDrain) <-> (j = i /\ tp x = TDrain) \/ (j <> i /\ exists z, nth_error l j = Some z /\ tp z = TDrain)).
Proof.
  intros H. destruct (Nat.eq_dec j i) as [->|N].
  - rewrite (nth_set_same _ _ _ _ H). split; [intros (z & [= <-] & K); auto|intros [(_ & K)|(K & _)]; [eauto|congruence]].
  - rewrite nth_set_other by congruence. intuition.
Qed.

Lemma task_at_spec s i p : task_at s i = Some p -> exists x, nth_error (tasks s) i = Some x /\ tp x = p /\ cancelled x = false.
Proof. unfold task_at. destruct (nth_error (tasks s) i) as [x|]; [|discriminate]. destruct (cancelled x) eqn:C; [discriminate|]. intros [= <-]. eauto. Qed.

(** One task changes, and with it the handle and the lock. *)
Lemma tinv_task s i y x lk h : tinv s -> nth_error (tasks s) i = Some y -> (cancelled y = true -> cancelled x = true) ->
  ((tp x <> TDone /\ cancelled x = false) <-> h = Some i) -> (forall j, j <> i -> (handle s = Some j <-> h = Some j)) ->
  (tp x = TDrain <-> lk = Some (ATask i)) -> (forall j, j <> i -> (lock s = Some (ATask j) <-> lk = Some (ATask j))) ->
  (lock s = Some TheIo <-> lk = Some TheIo) ->
  (on s = true -> closing s = CNo -> conn s = true -> exists i, h = Some i) ->
  tinv (set_lock (set_tasks s (set_nth i x (tasks s)) h) lk).
Proof.
  intros [A B C D E F G H I J] Y CX HX HO LX LO LI ON. constructor; cbn [set_lock set_tasks tasks handle io closing lock io_cancel on pend conn expires]; auto.
  - intros j. rewrite (alive_set _ _ _ _ _ Y). destruct (Nat.eq_dec j i) as [->|N]; [rewrite <- HX; intuition|]. rewrite <- (HO j N), <- A. intuition.
  - intros j Z. apply (dying_set _ _ _ _ _ Y). destruct (Nat.eq_dec j i) as [->|N]; [|auto]. left. split; [reflexivity|]. destruct (B _ Z) as (z & Z1 & Z2). apply CX. congruence.
  - intros j Z. apply (dying_set _ _ _ _ _ Y). destruct (Nat.eq_dec j i) as [->|N]; [|auto]. left. split; [reflexivity|]. destruct (C _ Z) as (z & Z1 & Z2). apply CX. congruence.
  - intros j. rewrite (drain_set _ _ _ _ _ Y). destruct (Nat.eq_dec j i) as [->|N]; [rewrite <- LX; intuition|]. rewrite <- (LO j N), <- D. intuition.
  - rewrite <- LI. exact E.
Qed.

Lemma set_lock_same s : set_lock s (lock s) = s.
Proof. now destruct s. Qed.

Lemma tinv_task' s i y x h : tinv s -> nth_error (tasks s) i = Some y -> (cancelled y = true -> cancelled x = true) ->
  ((tp x <> TDone /\ cancelled x = false) <-> h = Some i) -> (forall j, j <> i -> (handle s = Some j <-> h = Some j)) ->
  (tp x = TDrain <-> tp y = TDrain) ->
  (on s = true -> closing s = CNo -> conn s = true -> exists i, h = Some i) ->
  tinv (set_tasks s (set_nth i x (tasks s)) h).
Proof.
  intros T Y CX HX HO LX ON. rewrite <- (set_lock_same (set_tasks s (set_nth i x (tasks s)) h)). cbn [set_tasks lock].
  apply (tinv_task s i y x (lock s) h T Y CX HX HO); try tauto.
  rewrite LX, <- (t_drain _ T i). split; [intros; eauto|]. intros (z & Z & ZD). congruence.
Qed.

Lemma tinv_trace s o e p : tinv s -> (o = false -> p = [] /\ e = None) -> (o = true -> on s = true) -> tinv (set_trace s o e p).
Proof. intros [A B C D E F G H I J] O1 O2. constructor; cbn; auto; try (intros ->; apply O1; reflexivity). Qed.

Lemma expire_tinv s : tinv s -> tinv (expire s).
Proof.
  intros T. unfold expire. destruct (expires s); [|exact T]. destruct (now s <? n); [exact T|]. unfold set_trace_control. cbn. apply tinv_trace; auto; discriminate.
Qed.

Lemma expire_rest s : tasks (expire s) = tasks s /\ handle (expire s) = handle s /\ io (expire s) = io s /\ io_cancel (expire s) = io_cancel s /\
  lock (expire s) = lock s /\ closing (expire s) = closing s /\ conn (expire s) = conn s /\ wire (expire s) = wire s /\ got (expire s) = got s /\
  fetched (expire s) = fetched s /\ count (expire s) = count s.
Proof. unfold expire. destruct (expires s); [destruct (now s <? n)|]; cbn; repeat split. Qed.

Lemma task_ends_tinv s i p : tinv s -> task_at s i = Some p -> p <> TDone -> p <> TDrain -> (on s = true -> closing s = CNo -> conn s = true -> False) -> tinv (task_ends s i).
Proof.
  intros T H ND NR OFF. destruct (task_at_spec _ _ _ H) as (x & X & <- & XC). unfold task_ends.
  assert (HA : handle s = Some i) by (apply (t_handle _ T); exists x; auto). rewrite HA, Nat.eqb_refl.
  apply (tinv_task' s i x _ None T X); cbn.
  - congruence.
  - split; [intros ([] & _); reflexivity|discriminate].
  - intros j N. split; [congruence|discriminate].
  - split; [discriminate|contradiction].
  - intros O C K. destruct (OFF O C K).
Qed.

Lemma goes_on_tinv s i p : tinv s -> task_at s i = Some p -> p <> TDone -> p <> TDrain -> tinv (goes_on s i).
Proof.
  intros T H ND NR. unfold goes_on. pose proof (expire_tinv _ T) as T'. destruct (expire_rest s) as (E1 & E2 & _).
  assert (H' : task_at (expire s) i = Some p) by (unfold task_at in *; now rewrite E1).
  destruct (on (expire s)) eqn:O.
  - destruct (task_at_spec _ _ _ H') as (x & X & <- & XC). assert (HA : handle (expire s) = Some i) by (apply (t_handle _ T'); exists x; auto).
    apply (tinv_task' _ i x _ _ T' X); cbn.
    + congruence.
    + rewrite HA. split; [reflexivity|]. intros _. split; [discriminate|reflexivity].
    + tauto.
    + split; [discriminate|contradiction].
    + intros _ _ _. eauto.
  - apply (task_ends_tinv _ _ p T' H' ND NR). congruence.
Qed.

Lemma cancel_nth s i x : nth_error (tasks s) i = Some x -> cancel_task s i = set_nth i (mkTask (tp x) true) (tasks s).
Proof. unfold cancel_task. now intros ->. Qed.

(** The task with the handle is cancelled. *)
Lemma cancel_tinv s i : tinv s -> handle s = Some i -> (on s = true -> closing s = CNo -> conn s = true -> False) -> tinv (set_tasks s (cancel_task s i) None).
Proof.
  intros T H OFF. destruct (proj2 (t_handle _ T i) H) as (x & X & ND & XC). rewrite (cancel_nth _ _ _ X).
  apply (tinv_task' s i x _ None T X); cbn; try tauto.
  - split; [intros (_ & Z); discriminate|discriminate].
  - intros j N. split; [congruence|discriminate].
Qed.

Lemma dying_cancel s i j : dying (tasks s) j -> dying (cancel_task s i) j.
Proof.
  intros D. unfold cancel_task. destruct (nth_error (tasks s) i) as [x|] eqn:X; [|exact D]. apply (dying_set _ _ _ _ _ X). destruct (Nat.eq_dec j i); auto.
Qed.

Lemma cancel_io_tinv s : tinv s -> (forall i, closing s <> CAwaitTask i \/ True) -> tinv (cancel_io s).
Proof.
  intros T _. unfold cancel_io. destruct T as [A B C D E F G H I J]. destruct (io s) as [|i| | |] eqn:IO.
  - constructor; cbn; auto; try discriminate; try congruence; intros; rewrite ?IO in *; try discriminate; auto; intuition congruence.
  - destruct (B i eq_refl) as (x & X & XC).
    assert (EQ : cancel_task s i = tasks s).
    { rewrite (cancel_nth _ _ _ X). clear -X XC. revert i X. induction (tasks s) as [|y l IH]; intros [|i]; cbn; try discriminate; [intros [= ->]; destruct x; cbn in *; now subst|]. intros X. f_equal. auto. }
    rewrite EQ. constructor; cbn; auto; try discriminate; rewrite ?IO; auto.
  - constructor; cbn; auto; try discriminate; intros; rewrite ?IO in *; try discriminate; auto; intuition congruence.
  - constructor; cbn; auto; try discriminate; intros; rewrite ?IO in *; try discriminate; auto; intuition congruence.
  - constructor; cbn; auto; try discriminate; rewrite ?IO; auto.
Qed.

Lemma step_tinv s a s' : tinv s -> step s a = Some s' -> tinv s'.
Proof.
  intros T ST. destruct a as [| |b ttl|n| |i|i|i|i| | | | | | | | | | | |]; cbn [TracePushModel.step] in ST.
  - (* Record *) injection ST as <-. destruct T as [A B C D E F G H I J]. constructor; cbn; auto. intros O. rewrite O. auto.
  - (* Advance *) injection ST as <-. destruct T. constructor; auto.
  - (* Control *) destruct (io s) eqn:IO; try discriminate. destruct (negb (io_cancel s) && conn s) eqn:IC; [|discriminate]. injection ST as <-.
    apply andb_prop in IC. destruct IC as (IC & CN). apply negb_true_iff in IC.
    assert (SI : forall t p, tinv t -> io t = IORead -> io_cancel t = false -> p = IOWrite \/ (exists i, p = IOAwait i /\ dying (tasks t) i) -> tinv (set_io t p false)).
    { intros t p [A B C D E F G H I J] X1 X2 X3. constructor; cbn; auto; try discriminate.
      - intros i Z. destruct X3 as [->|(k & -> & K)]; [discriminate|]. injection Z as <-. exact K.
      - split; [intros Z; destruct X3 as [->|(k & -> & K)]; discriminate|]. intros Z. apply E in Z. congruence. }
    unfold control. cbn [set_trace_control set_trace io_cancel]. rewrite IC. destruct b.
    + set (s1 := set_trace_control s true ttl).
      assert (T1 : tinv (ensure s1)).
      { assert (NON : forall i, handle s = Some i -> exists x, nth_error (tasks s) i = Some x /\ tp x <> TDone) by (intros i Z; apply (t_handle _ T) in Z; destruct Z as (x & X1 & X2 & _); eauto).
        destruct T as [A B C D E F G H I J]. unfold ensure. cbn [s1 set_trace_control set_trace handle tasks].
        destruct (handle s) as [i|] eqn:HA.
        - destruct (NON i eq_refl) as (x & X1 & X2). rewrite X1. assert (L : match tp x with TDone => false | _ => true end = true) by (destruct (tp x); congruence). rewrite L.
          constructor; cbn; auto; try discriminate; rewrite ?HA; eauto.
        - assert (AL : forall j, alive (tasks s ++ [mkTask TSleep false]) j <-> Some (length (tasks s)) = Some j).
          { intros j. split.
            - intros (x & X & X2). destruct (Nat.lt_ge_cases j (length (tasks s))) as [L|L].
              + rewrite nth_error_app1 in X by exact L. assert (None = Some j) by (apply A; exists x; auto). discriminate.
              + rewrite nth_error_app2 in X by exact L. destruct (j - length (tasks s)) as [|k] eqn:K; [f_equal; lia|]. destruct k; discriminate.
            - intros [= <-]. exists (mkTask TSleep false). rewrite nth_error_app2, Nat.sub_diag by lia. cbn. repeat split; discriminate. }
          assert (DY : forall j, dying (tasks s) j -> dying (tasks s ++ [mkTask TSleep false]) j).
          { intros j (x & X & X2). exists x. split; [|exact X2]. rewrite nth_error_app1; [exact X|]. apply nth_error_Some. congruence. }
          constructor; cbn; auto; try discriminate; [|eauto].
          intros j. rewrite <- D. split; intros (x & X & X2).
          + destruct (Nat.lt_ge_cases j (length (tasks s))) as [L|L]; [rewrite nth_error_app1 in X by exact L; eauto|].
            rewrite nth_error_app2 in X by exact L. destruct (j - length (tasks s)) as [|k]; [injection X as <-; discriminate|]. destruct k; discriminate.
          + exists x. split; [|exact X2]. rewrite nth_error_app1; [exact X|]. apply nth_error_Some. congruence. }
      assert (R : io (ensure s1) = IORead /\ io_cancel (ensure s1) = false) by (unfold ensure; destruct (match handle s1 with Some i => _ | None => false end); cbn; auto).
      apply SI; try apply R; auto.
    + set (s1 := set_trace_control s false ttl). assert (T1 : tinv s1) by (apply tinv_trace; auto; discriminate).
      assert (HS : handle s1 = handle s) by reflexivity. destruct (handle s1) as [i|] eqn:HA; [|apply SI; auto].
      apply SI; auto; [apply cancel_tinv; auto; discriminate|]. right. exists i. split; [reflexivity|]. cbn [set_tasks tasks].
      destruct (proj2 (t_handle _ T i) (eq_sym HS)) as (x & X & _). assert (X1 : nth_error (tasks s1) i = Some x) by exact X. rewrite (cancel_nth _ _ _ X1).
      apply (dying_set _ _ _ _ _ X1). left. auto.
  - (* Fetch *) destruct (io s) eqn:IO; try discriminate. destruct (negb (io_cancel s) && conn s) eqn:IC; [|discriminate]. injection ST as <-.
    apply andb_prop in IC. destruct IC as (IC & CN). apply negb_true_iff in IC. pose proof (expire_tinv _ T) as T'. destruct (expire_rest s) as (E1 & E2 & E3 & E4 & _).
    unfold fetch. destruct T' as [A B C D E F G H I J]. rewrite E3, IO in *. rewrite E4, IC in *. constructor; cbn; auto; try discriminate; rewrite ?E4, ?IC; try discriminate.
    + split; [discriminate|]. intros Z. apply E in Z. discriminate.
    + intros O. rewrite (G O). apply skipn_nil.
  - (* Ping *) destruct (io s) eqn:IO; try discriminate. destruct (negb (io_cancel s) && conn s) eqn:IC; [|discriminate]. injection ST as <-.
    destruct T as [A B C D E F G H I J]. constructor; cbn; auto; try discriminate. split; [discriminate|]. intros Z. apply E in Z. congruence.
  - (* Wake *) destruct (task_at s i) as [[]|] eqn:TA; try discriminate. injection ST as <-. unfold wake. pose proof (expire_tinv _ T) as T'. destruct (expire_rest s) as (E1 & E2 & E3 & E4 & E5 & E6 & E7 & _).
    set (s1 := set_trace (expire s) (on (expire s)) (expires (expire s)) (skipn limit (pend (expire s)))).
    assert (T1 : tinv s1). { apply tinv_trace; auto. intros O. rewrite (t_off _ T' O), (t_ttl _ T' O), skipn_nil. auto. }
    assert (TA1 : task_at s1 i = Some TSleep) by (unfold task_at in *; cbn; now rewrite E1).
    destruct (firstn limit (pend (expire s))) as [|x0 l0] eqn:BA; [apply (goes_on_tinv _ _ TSleep T1 TA1); discriminate|].
    destruct (closing s1) eqn:CL; try (apply (task_ends_tinv _ _ TSleep T1 TA1); try discriminate; rewrite CL; discriminate).
    all: destruct (task_at_spec _ _ _ TA1) as (x & X & XP & XC); assert (HA : handle s1 = Some i) by (apply (t_handle _ T1); exists x; repeat split; auto; congruence);
      apply (tinv_task' s1 i x _ _ T1 X); cbn [tp cancelled];
        [congruence|split; [intros _; exact HA|intros _; split; [discriminate|reflexivity]]|tauto|rewrite XP; split; discriminate|eauto].
  - (* Write *) destruct (task_at s i) as [[]|] eqn:TA; try discriminate. destruct (lock s) eqn:LK; [discriminate|].
    destruct (task_at_spec _ _ _ TA) as (x & X & XP & XC). assert (HA : handle s = Some i) by (apply (t_handle _ T); exists x; repeat split; auto; congruence).
    destruct (conn s) eqn:CN; injection ST as <-.
    + assert (T1 : tinv (set_lock (set_tasks s (set_nth i (mkTask TDrain false) (tasks s)) (handle s)) (Some (ATask i)))).
      { apply (tinv_task s i x _ _ _ T X); cbn; [congruence|split; [intros _; exact HA|intros _; split; [discriminate|reflexivity]]|tauto|tauto| |rewrite LK; split; discriminate|eauto].
        intros j N. rewrite LK. split; [discriminate|]. intros [= ->]. congruence. }
      destruct T1. constructor; auto.
    + apply (task_ends_tinv _ _ _ T TA); try discriminate. congruence.
  - (* Drained *) destruct (task_at s i) as [[]|] eqn:TA; try discriminate. injection ST as <-. destruct (task_at_spec _ _ _ TA) as (x & X & XP & XC).
    assert (HA : handle s = Some i) by (apply (t_handle _ T); exists x; repeat split; auto; congruence).
    assert (LK : lock s = Some (ATask i)) by (apply (t_drain _ T); eauto).
    assert (RL : release s (ATask i) = None) by (unfold release; rewrite LK, Nat.eqb_refl; reflexivity). rewrite RL.
    (* as if the task had first gone to sleep *)
    assert (T1 : tinv (set_lock (set_tasks s (set_nth i (mkTask TSleep false) (tasks s)) (handle s)) None)).
    { apply (tinv_task s i x _ _ _ T X); cbn; [congruence|split; [intros _; exact HA|intros _; split; [discriminate|reflexivity]]|tauto|split; discriminate| |rewrite LK; split; discriminate|eauto].
      intros j N. rewrite LK. split; [intros [= ->]; congruence|discriminate]. }
    set (s1 := set_lock s None). set (s2 := set_lock (set_tasks s (set_nth i (mkTask TSleep false) (tasks s)) (handle s)) None) in *.
    assert (SS : forall y z : task, set_nth i y (set_nth i z (tasks s)) = set_nth i y (tasks s)).
    { intros y z. clear. generalize (tasks s). revert i. induction i as [|i IH]; intros [|w l]; cbn; auto. now rewrite IH. }
    assert (TA2 : task_at s2 i = Some TSleep) by (unfold task_at, s2; cbn; now rewrite (nth_set_same _ _ _ _ X)).
    change (conn (set_lock s None)) with (conn s). destruct (conn s) eqn:CN.
    + assert (EQ : goes_on s1 i = goes_on s2 i).
      { unfold goes_on, s1, s2, expire. cbn [set_lock set_tasks expires now on]. destruct (expires s) as [t|]; [destruct (now s <? t)|]; cbn; try (destruct (on s)); unfold task_ends, set_trace_control; cbn; rewrite ?SS; reflexivity. }
      fold s1. rewrite EQ. apply (goes_on_tinv _ _ _ T1 TA2); discriminate.
    + assert (EQ : task_ends s1 i = task_ends s2 i) by (unfold task_ends, s1, s2; cbn; rewrite SS; reflexivity).
      fold s1. rewrite EQ. apply (task_ends_tinv _ _ _ T1 TA2); try discriminate. cbn. congruence.
  - (* Die *) destruct (nth_error (tasks s) i) as [[p c]|] eqn:X; [|discriminate]. destruct c; [|discriminate].
    assert (Z : s' = set_lock (set_tasks s (set_nth i (mkTask TDone true) (tasks s)) (handle s)) (release s (ATask i))) by (destruct p; try discriminate; injection ST as <-; reflexivity). subst s'.
    assert (HN : handle s <> Some i). { intros Z. apply (t_handle _ T) in Z. destruct Z as (y & Y & _ & YC). rewrite X in Y. injection Y as <-. discriminate. }
    apply (tinv_task s i _ _ _ _ T X); cbn; try tauto.
    + split; [discriminate|]. unfold release. destruct (lock s) as [[j| |]|]; try discriminate. destruct (Nat.eqb_spec j i); [discriminate|congruence].
    + intros j N. unfold release. destruct (lock s) as [[k| |]|]; try (split; intros; assumption). destruct (Nat.eqb_spec k i) as [->|]; [split; [intros [= ->]; congruence|discriminate]|tauto].
    + unfold release. destruct (lock s) as [[k| |]|]; try (split; intros; assumption). destruct (k =? i); [split; discriminate|tauto].
    + exact (t_on _ T).
  - (* IoResume *) destruct (io s) as [|i| | |] eqn:IO; try discriminate. destruct (nth_error (tasks s) i) as [x|] eqn:X; [|discriminate]. destruct (tp x); try discriminate. injection ST as <-.
    destruct T as [A B C D E F G H I J]. constructor; cbn; auto; try discriminate. split; [discriminate|]. intros Z. apply E in Z. congruence.
  - (* IoWrite *) destruct (io s) eqn:IO; try discriminate. destruct (lock s) eqn:LK; [discriminate|]. destruct (io_cancel s) eqn:IC; [discriminate|]. injection ST as <-.
    destruct T as [A B C D E F G H I J]. destruct (conn s) eqn:CN; constructor; cbn; auto; try discriminate; try congruence; try (intros; apply H; congruence).
    + intros i. rewrite D, LK. split; discriminate.
    + tauto.
    + rewrite LK. split; discriminate.
  - (* IoDrained *) destruct (io s) eqn:IO; try discriminate. destruct (io_cancel s) eqn:IC; [discriminate|]. injection ST as <-.
    assert (LK : lock s = Some TheIo) by (apply (t_iodrain _ T); exact IO). assert (RL : release s TheIo = None) by (unfold release; now rewrite LK). rewrite RL.
    destruct T as [A B C D E F G H I J]. constructor; cbn; auto; try discriminate.
    + intros i Z. destruct (conn s); discriminate.
    + intros i. rewrite D, LK. split; discriminate.
    + split; [destruct (conn s); discriminate|discriminate].
  - (* IoCancelled *) destruct (io_cancel s) eqn:IC; [|discriminate]. injection ST as <-. destruct T as [A B C D E F G H I J].
    assert (RL : forall w, release s TheIo = Some w <-> lock s = Some w /\ w <> TheIo).
    { intros w. unfold release. destruct (lock s) as [[k| |]|]; split; try discriminate; try (intros [= <-]; split; [reflexivity|discriminate]); try (intros ([= <-] & Z); congruence); try (intros (? & _); discriminate). }
    constructor; cbn; auto; try discriminate.
    + intros i. rewrite D, RL. split; [intros ->; split; [reflexivity|discriminate]|tauto].
    + rewrite RL. split; [discriminate|tauto].
  - (* IoEof *) destruct (io s) eqn:IO; try discriminate. destruct (conn s || io_cancel s) eqn:Z; [discriminate|]. injection ST as <-.
    destruct T as [A B C D E F G H I J]. constructor; cbn; auto; try discriminate. split; [discriminate|]. intros Y. apply E in Y. congruence.
  - (* OtherWrite *) destruct (lock s) eqn:LK; [discriminate|]. injection ST as <-. destruct T as [A B C D E F G H I J]. constructor; cbn; auto.
    + intros i. rewrite D, LK. split; discriminate.
    + rewrite E, LK. split; discriminate.
  - (* OtherDrained *) destruct (lock s) as [[]|] eqn:LK; try discriminate. injection ST as <-. destruct T as [A B C D E F G H I J]. constructor; cbn; auto.
    + intros i. rewrite D, LK. split; discriminate.
    + rewrite E, LK. split; discriminate.
  - (* Close *) destruct (closing s) eqn:CL; try discriminate. injection ST as <-. unfold close. destruct (handle s) as [i|] eqn:HA; [|apply cancel_io_tinv; auto].
    destruct (proj2 (t_handle _ T i) HA) as (x & X & ND & XC).
    assert (T0 : tinv (set_closing s (CAwaitIo))) by (destruct T; constructor; cbn; auto; discriminate).
    pose proof (cancel_tinv _ i T0 HA) as T1. cbn in T1. assert (T2 := T1 ltac:(discriminate)). clear T1. destruct T2 as [A B C D E F G H I J].
    change (cancel_task (set_closing s CAwaitIo) i) with (cancel_task s i) in *.
    constructor; cbn in *; auto; try discriminate. intros j [= <-]. rewrite (cancel_nth _ _ _ X). apply (dying_set _ _ _ _ _ X). left. auto.
  - (* CloseResume *) destruct (closing s) as [|i| |] eqn:CL; try discriminate. destruct (nth_error (tasks s) i) as [x|]; [|discriminate]. destruct (tp x); try discriminate. injection ST as <-. apply cancel_io_tinv; auto.
  - (* CloseEnd *) destruct (closing s) eqn:CL; try discriminate. destruct (io s) eqn:IO; try discriminate. injection ST as <-. destruct T as [A B C D E F G H I J]. constructor; cbn; auto; try discriminate; rewrite ?IO; auto.
  - (* Lost *) injection ST as <-. destruct T as [A B C D E F G H I J]. constructor; cbn; auto. discriminate.
  - (* Arrive *) destruct (wire s) as [|b w]; [discriminate|]. injection ST as <-. destruct T. constructor; auto.
Qed.

Lemma run_tinv l : forall s s', tinv s -> run s l = Some s' -> tinv s'.
Proof.
  induction l as [|a l IH]; intros s s' T R; cbn in R; [now injection R as <-|]. destruct (step s a) as [s1|] eqn:S; [|discriminate].
  apply (IH s1); [eapply step_tinv; eauto|exact R].
Qed.

(** ** Where the samples are *)

Definition live (s : st) : list nat :=
  match handle s with
  | Some i => match nth_error (tasks s) i with Some x => match tp x with TLock b => b | _ => [] end | None => [] end
  | None => []
  end.
Definition chain (s : st) : list nat := got s ++ concat (wire s) ++ live s ++ pend s.

Lemma live_alive s i x : handle s = Some i -> nth_error (tasks s) i = Some x -> live s = match tp x with TLock b => b | _ => [] end.
Proof. unfold live. now intros -> ->. Qed.

Lemma in_hand_live s i b : tinv s -> in_hand s i b -> live s = b.
Proof.
  intros T (x & X & XP & XC). assert (handle s = Some i) by (apply (t_handle _ T); exists x; repeat split; auto; congruence).
  rewrite (live_alive _ _ _ H X), XP. reflexivity.
Qed.

Lemma cancel_dying s i : dying (tasks s) i -> cancel_task s i = tasks s.
Proof.
  intros (x & X & XC). rewrite (cancel_nth _ _ _ X). clear -X XC. revert i X.
  induction (tasks s) as [|y l IH]; intros [|i]; cbn; try discriminate; [intros [= ->]; destruct x; cbn in *; now subst|]. intros X. f_equal. auto.
Qed.

Lemma expire_pend s : pend (expire s) = pend s \/ pend (expire s) = [].
Proof. unfold expire. destruct (expires s); [destruct (now s <? n)|]; cbn; auto. Qed.

Lemma live_ext s s' : handle s' = handle s -> tasks s' = tasks s -> live s' = live s.
Proof. unfold live. now intros -> ->. Qed.

Lemma concat_snoc {A} (w : list (list A)) b : concat (w ++ [b]) = concat w ++ b.
Proof. rewrite concat_app. cbn. now rewrite app_nil_r. Qed.

(** What a step does to the places; [q] is what becomes of the buffer. *)
Lemma goes_on_places s i p : tinv s -> task_at s i = Some p -> p <> TDone ->
  got (goes_on s i) = got s /\ wire (goes_on s i) = wire s /\ fetched (goes_on s i) = fetched s /\ count (goes_on s i) = count s /\
  live (goes_on s i) = [] /\ (pend (goes_on s i) = pend s \/ pend (goes_on s i) = []).
Proof.
  intros T H ND. unfold goes_on. destruct (expire_rest s) as (E1 & E2 & E3 & E4 & E5 & E6 & E7 & E8 & E9 & E10 & E11). pose proof (expire_pend s) as EP.
  destruct (task_at_spec _ _ _ H) as (x & X & <- & XC). assert (HA : handle s = Some i) by (apply (t_handle _ T); exists x; auto).
  destruct (on (expire s)); unfold task_ends; cbn [set_tasks got wire fetched count pend]; rewrite ?E8, ?E9, ?E10, ?E11; repeat split; auto.
  - unfold live. cbn [set_tasks handle tasks]. rewrite E2, HA, E1, (nth_set_same _ _ _ _ X). reflexivity.
  - unfold live. cbn [set_tasks handle tasks]. rewrite E2, HA, Nat.eqb_refl. reflexivity.
Qed.

Lemma places s a s' : tinv s -> step s a = Some s' ->
  (a = Record /\ s' = record cap s) \/
  (exists n, (exists k, a = Fetch k) /\ got s' = got s /\ wire s' = wire s /\ live s' = live s /\ count s' = count s /\
     exists q, (q = pend s \/ q = []) /\ fetched s' = fetched s ++ firstn n q /\ pend s' = skipn n q) \/
  (sub (chain s') (chain s) /\ fetched s' = fetched s /\ sub (pend s') (pend s) /\ count s' = count s).
Proof.
  intros T ST.
  assert (SAME : forall s', got s' = got s -> wire s' = wire s -> live s' = live s \/ live s' = [] -> fetched s' = fetched s -> count s' = count s -> pend s' = pend s \/ pend s' = [] ->
            sub (chain s') (chain s) /\ fetched s' = fetched s /\ sub (pend s') (pend s) /\ count s' = count s).
  { clear s' ST. intros s' G W L F C P. unfold chain. rewrite G, W. assert (sub (pend s') (pend s)) by (destruct P as [->| ->]; [apply sub_refl|constructor]). repeat split; auto.
    repeat (apply sub_app; try apply sub_refl); auto. destruct L as [->| ->]; [apply sub_refl|constructor]. }
  destruct a as [| |b ttl|n| |i|i|i|i| | | | | | | | | | | |]; cbn [TracePushModel.step] in ST.
  - left. split; [reflexivity|]. now injection ST as <-.
  - right. right. injection ST as <-. apply SAME; auto.
  - right. right. destruct (io s) eqn:IO; try discriminate. destruct (negb (io_cancel s) && conn s); [|discriminate]. injection ST as <-.
    destruct b.
    + unfold control, ensure. cbn [set_trace_control set_trace handle tasks]. destruct (handle s) as [i|] eqn:HA.
      * destruct (proj2 (t_handle _ T i) HA) as (x & X & ND & XC). rewrite X.
        destruct (tp x) eqn:XP; try congruence; apply SAME; auto; left; unfold live; cbn; rewrite HA; reflexivity.
      * apply SAME; auto. right. unfold live. cbn. rewrite nth_error_app2, Nat.sub_diag by lia. reflexivity.
    + unfold control. cbn [set_trace_control set_trace handle]. destruct (handle s) as [i|] eqn:HA; apply SAME; auto.
  - right. left. destruct (io s) eqn:IO; try discriminate. destruct (negb (io_cancel s) && conn s); [|discriminate]. injection ST as <-.
    destruct (expire_rest s) as (E1 & E2 & E3 & E4 & E5 & E6 & E7 & E8 & E9 & E10 & E11).
    exists (Nat.max 1 n). split; [eauto|]. unfold fetch. cbn [set_io set_trace set_net got wire count fetched pend]. rewrite E8, E9, E10, E11.
    split; [reflexivity|]. split; [reflexivity|]. split; [apply live_ext; cbn; auto|]. split; [reflexivity|]. exists (pend (expire s)). split; [apply expire_pend|auto].
  - right. right. destruct (io s) eqn:IO; try discriminate. destruct (negb (io_cancel s) && conn s); [|discriminate]. injection ST as <-. apply SAME; auto.
  - (* Wake *) right. right. destruct (task_at s i) as [[]|] eqn:TA; try discriminate. injection ST as <-.
    destruct (expire_rest s) as (E1 & E2 & E3 & E4 & E5 & E6 & E7 & E8 & E9 & E10 & E11).
    destruct (task_at_spec _ _ _ TA) as (x & X & XP & XC). assert (HA : handle s = Some i) by (apply (t_handle _ T); exists x; repeat split; auto; congruence).
    assert (LV : live s = []) by (rewrite (live_alive _ _ _ HA X), XP; reflexivity).
    pose proof (expire_pend s) as EP. pose proof (expire_tinv _ T) as T'.
    set (s1 := set_trace (expire s) (on (expire s)) (expires (expire s)) (skipn limit (pend (expire s)))).
    assert (T1 : tinv s1). { apply tinv_trace; auto. intros O. rewrite (t_off _ T' O), (t_ttl _ T' O), skipn_nil. auto. }
    assert (TA1 : task_at s1 i = Some TSleep) by (unfold task_at in *; cbn; now rewrite E1).
    assert (HA1 : handle s1 = Some i) by (cbn; congruence). assert (X1 : nth_error (tasks s1) i = Some x) by (cbn; congruence).
    assert (SP : sub (pend (expire s)) (pend s)) by (destruct EP as [->| ->]; [apply sub_refl|constructor]).
    assert (SK : sub (skipn limit (pend (expire s))) (pend s)). { destruct EP as [->| ->]; [apply sub_skipn|rewrite skipn_nil; constructor]. }
    unfold wake. fold s1. destruct (firstn limit (pend (expire s))) as [|x0 l0] eqn:BA.
    + destruct (goes_on_places _ _ _ T1 TA1 ltac:(discriminate)) as (G & W & F & C & L & P). unfold chain. rewrite G, W, F, C, L, LV. cbn [s1 set_trace got wire fetched count]. rewrite E8, E9, E10, E11.
      assert (SQ : sub (pend (goes_on s1 i)) (pend s)) by (destruct P as [->| ->]; [exact SK|constructor]).
      repeat split; auto. repeat (apply sub_app; try apply sub_refl); auto.
    + assert (EN : sub (chain (task_ends s1 i)) (chain s) /\ fetched (task_ends s1 i) = fetched s /\ sub (pend (task_ends s1 i)) (pend s) /\ count (task_ends s1 i) = count s).
      { unfold chain, task_ends, live. cbn [set_tasks got wire handle tasks pend fetched count]. rewrite HA1, Nat.eqb_refl. cbn [s1 set_trace got wire fetched count pend]. rewrite E8, E9, E10, E11.
        repeat split; auto. repeat (apply sub_app; try apply sub_refl); auto. constructor. }
      destruct (closing s1); try exact EN.
      all: unfold chain, live; cbn [set_tasks got wire handle tasks pend fetched count]; rewrite HA1, (nth_set_same _ _ _ _ X1); cbn [tp s1 set_trace got wire fetched count pend]; rewrite E8, E9, E10, E11;
        (split; [|split; [reflexivity|split; [exact SK|reflexivity]]]); (apply sub_app; [apply sub_refl|]); (apply sub_app; [apply sub_refl|]);
        rewrite <- BA, firstn_skipn; rewrite HA, X, XP; exact SP.
  - (* Write *) right. right. destruct (task_at s i) as [[]|] eqn:TA; try discriminate. destruct (lock s) eqn:LK; [discriminate|].
    destruct (task_at_spec _ _ _ TA) as (x & X & XP & XC). assert (HA : handle s = Some i) by (apply (t_handle _ T); exists x; repeat split; auto; congruence).
    assert (LV : live s = batch) by (rewrite (live_alive _ _ _ HA X), XP; reflexivity).
    destruct (conn s) eqn:CN; injection ST as <-.
    + unfold chain. rewrite LV. unfold live. cbn [set_lock set_net set_tasks got wire handle tasks pend fetched count]. rewrite HA, (nth_set_same _ _ _ _ X), concat_snoc. cbn [tp].
      repeat split; auto using sub_refl. rewrite <- !app_assoc. apply sub_refl.
    + apply SAME; auto. right. unfold task_ends, live. cbn. now rewrite HA, Nat.eqb_refl.
  - (* Drained *) right. right. destruct (task_at s i) as [[]|] eqn:TA; try discriminate. injection ST as <-.
    destruct (task_at_spec _ _ _ TA) as (x & X & XP & XC). assert (HA : handle s = Some i) by (apply (t_handle _ T); exists x; repeat split; auto; congruence).
    change (conn (set_lock s (release s (ATask i)))) with (conn s). destruct (conn s).
    + unfold goes_on. set (s1 := set_lock s (release s (ATask i))). destruct (expire_rest s1) as (E1 & E2 & E3 & E4 & E5 & E6 & E7 & E8 & E9 & E10 & E11). pose proof (expire_pend s1) as EP.
      destruct (on (expire s1)); apply SAME; unfold task_ends; cbn [set_tasks got wire fetched count pend]; try assumption; right; unfold live; cbn [set_tasks handle tasks]; rewrite E2; cbn [s1 set_lock handle]; rewrite HA; [rewrite E1; cbn [s1 set_lock tasks]; rewrite (nth_set_same _ _ _ _ X)|rewrite Nat.eqb_refl]; reflexivity.
    + apply SAME; auto. right. unfold task_ends, live. cbn. now rewrite HA, Nat.eqb_refl.
  - (* Die *) right. right. destruct (nth_error (tasks s) i) as [[p c]|] eqn:X; [|discriminate]. destruct c; [|discriminate].
    assert (Z : s' = set_lock (set_tasks s (set_nth i (mkTask TDone true) (tasks s)) (handle s)) (release s (ATask i))) by (destruct p; try discriminate; injection ST as <-; reflexivity). subst s'.
    assert (HN : handle s <> Some i). { intros Z. apply (t_handle _ T) in Z. destruct Z as (y & Y & _ & YC). rewrite X in Y. injection Y as <-. discriminate. }
    apply SAME; auto. left. unfold live. cbn. destruct (handle s) as [j|]; [|reflexivity]. rewrite nth_set_other by congruence. reflexivity.
  - right. right. destruct (io s) as [|i| | |] eqn:IO; try discriminate. destruct (nth_error (tasks s) i) as [x|] eqn:X; [|discriminate]. destruct (tp x); try discriminate. injection ST as <-. apply SAME; auto.
  - right. right. destruct (io s) eqn:IO; try discriminate. destruct (lock s) eqn:LK; [discriminate|]. destruct (io_cancel s) eqn:IC; [discriminate|]. injection ST as <-. destruct (conn s); apply SAME; auto.
  - right. right. destruct (io s) eqn:IO; try discriminate. destruct (io_cancel s) eqn:IC; [discriminate|]. injection ST as <-. apply SAME; auto.
  - right. right. destruct (io_cancel s) eqn:IC; [|discriminate]. injection ST as <-. apply SAME; auto.
  - right. right. destruct (io s) eqn:IO; try discriminate. destruct (conn s || io_cancel s); [discriminate|]. injection ST as <-. apply SAME; auto.
  - right. right. destruct (lock s) eqn:LK; [discriminate|]. injection ST as <-. apply SAME; auto.
  - right. right. destruct (lock s) as [[]|] eqn:LK; try discriminate. injection ST as <-. apply SAME; auto.
  - (* Close *) right. right. destruct (closing s) eqn:CL; try discriminate. injection ST as <-. unfold close. destruct (handle s) as [i|] eqn:HA.
    + apply SAME; auto.
    + unfold cancel_io. destruct (io s); apply SAME; auto. left. unfold live. cbn. now rewrite HA.
  - (* CloseResume *) right. right. destruct (closing s) as [|i| |] eqn:CL; try discriminate. destruct (nth_error (tasks s) i) as [x|]; [|discriminate]. destruct (tp x); try discriminate. injection ST as <-.
    unfold cancel_io. destruct (io s) as [|j| | |] eqn:IO; apply SAME; auto. left. apply live_ext; cbn; auto. apply cancel_dying, (t_io _ T), IO.
  - right. right. destruct (closing s) eqn:CL; try discriminate. destruct (io s) eqn:IO; try discriminate. injection ST as <-. apply SAME; auto.
  - right. right. injection ST as <-. unfold chain. cbn [set_net got wire pend fetched count concat app]. repeat split; auto using sub_refl. apply sub_app; [apply sub_refl|].
    change (sub ([] ++ live s ++ pend s) (concat (wire s) ++ live s ++ pend s)). apply sub_app; [constructor|apply sub_refl].
  - right. right. destruct (wire s) as [|b w] eqn:W; [discriminate|]. injection ST as <-. unfold chain. cbn [set_net got wire pend fetched count]. rewrite W. cbn [concat]. repeat split; auto using sub_refl.
    rewrite <- !app_assoc. apply sub_refl.
Qed.

Record oinv (s : st) : Prop := {
  o_chain : increasing (chain s);
  o_count : forall x, In x (chain s) -> x < count s;
  o_fetched : increasing (fetched s ++ pend s);
  o_fcount : forall x, In x (fetched s) -> x < count s;
  o_apart : forall x, In x (fetched s) -> ~ In x (chain s)
}.

Lemma append_sub l x : sub (append_bounded cap l x) (l ++ [x]).
Proof. apply sub_skipn. Qed.

Lemma in_pend s x : In x (pend s) -> In x (chain s).
Proof. intros H. unfold chain. rewrite !in_app_iff. auto. Qed.

Lemma step_oinv s a s' : tinv s -> oinv s -> step s a = Some s' -> oinv s'.
Proof.
  intros T [A B C D E] ST. destruct (places _ _ _ T ST) as [(-> & ->)|[(n & (k & ->) & G & W & L & CO & q & Q & F & P)|(S1 & F & S2 & CO)]].
  - assert (SUB : sub (chain (record cap s)) (chain s ++ [count s])).
    { unfold chain, live. cbn [record got wire handle tasks pend]. rewrite <- !app_assoc. repeat (apply sub_app; try apply sub_refl).
      destruct (on s); [apply append_sub|]. rewrite <- (app_nil_r (pend s)) at 1. apply sub_app; [apply sub_refl|constructor]. }
    assert (SUBP : sub (pend (record cap s)) (pend s ++ [count s])).
    { cbn [record pend]. destruct (on s); [apply append_sub|]. rewrite <- (app_nil_r (pend s)) at 1. apply sub_app; [apply sub_refl|constructor]. }
    constructor.
    + eapply sub_increasing; [exact SUB|]. now apply increasing_snoc.
    + intros x X. apply (sub_in _ _ _ SUB) in X. apply in_app_or in X. cbn. destruct X as [X|[<-|[]]]; [apply B in X|]; lia.
    + cbn [record fetched]. eapply sub_increasing; [apply sub_app; [apply sub_refl|exact SUBP]|]. rewrite app_assoc. apply increasing_snoc; [exact C|].
      intros x X. apply in_app_or in X. destruct X as [X|X]; [now apply D|apply B, in_pend, X].
    + intros x X. apply D in X. cbn. lia.
    + intros x X Y. apply (sub_in _ _ _ SUB) in Y. apply in_app_or in Y. destruct Y as [Y|[<-|[]]]; [exact (E x X Y)|]. apply D in X. lia.
  - assert (SQ : sub q (pend s)) by (destruct Q as [->| ->]; [apply sub_refl|constructor]).
    assert (CH : chain s' = got s ++ concat (wire s) ++ live s ++ skipn n q) by (unfold chain; now rewrite G, W, L, P).
    assert (SC : sub (chain s') (chain s)). { rewrite CH. unfold chain. repeat (apply sub_app; try apply sub_refl). destruct Q as [->| ->]; [apply sub_skipn|rewrite skipn_nil; constructor]. }
    constructor.
    + eapply sub_increasing; eauto.
    + intros x X. rewrite CO. apply B. eapply sub_in; eauto.
    + rewrite F, P, <- app_assoc, firstn_skipn. eapply sub_increasing; [|exact C]. apply sub_app; [apply sub_refl|exact SQ].
    + intros x X. rewrite CO. rewrite F in X. apply in_app_or in X. destruct X as [X|X]; [auto|]. apply B, in_pend. eapply sub_in; [exact SQ|]. eapply sub_in; [apply sub_firstn|exact X].
    + intros x X Y. rewrite F in X. apply in_app_or in X. destruct X as [X|X]; [apply (E x X); eapply sub_in; eauto|].
      assert (N : NoDup (got s ++ concat (wire s) ++ live s ++ q)).
      { apply increasing_NoDup. eapply sub_increasing; [|exact A]. unfold chain. repeat (apply sub_app; try apply sub_refl). exact SQ. }
      assert (N' : NoDup ((got s ++ concat (wire s) ++ live s) ++ firstn n q ++ skipn n q)) by (rewrite firstn_skipn, <- !app_assoc; exact N).
      assert (Y' : In x ((got s ++ concat (wire s) ++ live s) ++ skipn n q)) by (rewrite <- !app_assoc; rewrite CH in Y; exact Y).
      assert (ND : forall (a b c : list nat), NoDup (a ++ b ++ c) -> In x b -> ~ In x (a ++ c)).
      { induction a as [|z a IH]; cbn; intros b c H1 H2; [|].
        - clear -H1 H2. induction b as [|w b IH]; [destruct H2|]. cbn in H1. apply NoDup_cons_iff in H1. destruct H1 as (H1 & H3). destruct H2 as [->|H2]; [intros Z; apply H1, in_or_app; auto|auto].
        - apply NoDup_cons_iff in H1. destruct H1 as (H1 & H3). intros [->|Z]; [apply H1, in_or_app; right; apply in_or_app; auto|]. exact (IH b c H3 H2 Z). }
      exact (ND _ _ _ N' X Y').
  - constructor.
    + eapply sub_increasing; eauto.
    + intros x X. rewrite CO. apply B. eapply sub_in; eauto.
    + rewrite F. eapply sub_increasing; [|exact C]. apply sub_app; [apply sub_refl|exact S2].
    + rewrite F, CO. exact D.
    + rewrite F. intros x X Y. apply (E x X). eapply sub_in; eauto.
Qed.

Lemma oinv_init : oinv init.
Proof. constructor; cbn; auto; intros x []. Qed.

Lemma run_oinv l : forall s s', tinv s -> oinv s -> run s l = Some s' -> oinv s'.
Proof.
  induction l as [|a l IH]; intros s s' T O R; cbn in R; [now injection R as <-|]. destruct (step s a) as [s1|] eqn:S; [|discriminate].
  apply (IH s1); [eapply step_tinv; eauto|eapply step_oinv; eauto|exact R].
Qed.

Lemma step_members s a s' x : tinv s -> step s a = Some s' -> In x (fetched s' ++ chain s') ->
  In x (fetched s ++ chain s) \/ (a = Record /\ on s = true /\ x = count s).
Proof.
  intros T ST X. apply in_app_or in X. destruct (places _ _ _ T ST) as [(-> & ->)|[(n & (k & ->) & G & W & L & CO & q & Q & F & P)|(S1 & F & S2 & CO)]].
  - destruct X as [X|X]; [left; apply in_or_app; left; exact X|]. unfold chain, live in X. cbn [record got wire handle tasks pend] in X. fold (live s) in X.
    rewrite !in_app_iff in X. destruct (on s) eqn:O.
    + destruct X as [X|[X|[X|X]]]; try (left; apply in_or_app; right; unfold chain; rewrite !in_app_iff; auto; fail).
      apply (sub_in _ _ _ (append_sub _ _)) in X. apply in_app_or in X. destruct X as [X|[<-|[]]]; [left; apply in_or_app; right; now apply in_pend|auto].
    + left. apply in_or_app. right. unfold chain. rewrite !in_app_iff. exact X.
  - left. apply in_or_app. assert (SQ : sub q (pend s)) by (destruct Q as [->| ->]; [apply sub_refl|constructor]). destruct X as [X|X].
    + rewrite F in X. apply in_app_or in X. destruct X as [X|X]; [auto|]. right. apply in_pend. eapply sub_in; [exact SQ|]. eapply sub_in; [apply sub_firstn|exact X].
    + right. unfold chain in *. rewrite G, W, L, P in X. rewrite !in_app_iff in *. destruct X as [X|[X|[X|X]]]; auto. right. right. right. eapply sub_in; [exact SQ|]. eapply sub_in; [apply sub_skipn|exact X].
  - left. apply in_or_app. rewrite F in X. destruct X as [X|X]; [auto|]. right. eapply sub_in; eauto.
Qed.

Lemma step_count s a s' : tinv s -> step s a = Some s' -> count s <= count s'.
Proof. intros T ST. destruct (places _ _ _ T ST) as [(-> & ->)|[(n & (k & ->) & G & W & L & CO & _)|(S1 & F & S2 & CO)]]; cbn; lia. Qed.

Lemma run_members l : forall s s' x, tinv s -> run s l = Some s' -> x < count s -> In x (fetched s' ++ chain s') -> In x (fetched s ++ chain s).
Proof.
  induction l as [|a l IH]; intros s s' x T R L X; cbn in R; [now injection R as <-|]. destruct (step s a) as [s1|] eqn:S; [|discriminate].
  assert (X1 : In x (fetched s1 ++ chain s1)). { apply (IH s1 s'); auto; [eapply step_tinv; eauto|]. pose proof (step_count _ _ _ T S). lia. }
  destruct (step_members _ _ _ _ T S X1) as [?|(_ & _ & ->)]; [assumption|lia].
Qed.

(** ** While nobody interferes *)

Definition steady (s : st) : Prop := tinv s /\ on s = true /\ expires s = None /\ closing s = CNo /\ conn s = true.

Lemma expire_none s : expires s = None -> expire s = s.
Proof. unfold expire. now intros ->. Qed.

Lemma append_room l x : length l < cap -> append_bounded cap l x = l ++ [x].
Proof. intros H. unfold append_bounded. rewrite app_length. cbn. replace (length l + 1 - cap) with 0 by lia. reflexivity. Qed.

Lemma steady_step s a s' : steady s -> undisturbed a -> (a = Record -> length (pend s) < cap) -> step s a = Some s' ->
  steady s' /\ chain s' = chain s ++ (match a with Record => [count s] | _ => [] end) /\ count s' = count s + (match a with Record => 1 | _ => 0 end).
Proof.
  intros (T & O & EX & CL & CN) U RM ST. pose proof (step_tinv _ _ _ T ST) as T'. pose proof (expire_none _ EX) as EE.
  assert (IC : io_cancel s = false) by (destruct (io_cancel s) eqn:Z; [destruct (t_early _ T Z CL)|reflexivity]).
  assert (KEEP : forall s', tinv s' -> got s' = got s -> wire s' = wire s -> live s' = live s -> pend s' = pend s -> on s' = on s -> expires s' = expires s -> closing s' = closing s -> conn s' = conn s -> count s' = count s ->
            steady s' /\ chain s' = chain s ++ [] /\ count s' = count s + 0).
  { clear s' ST T'. intros s' T' A1 A2 A3 A4 A5 A6 A7 A8 A9. split; [unfold steady; rewrite A5, A6, A7, A8; auto|]. split; [|lia]. unfold chain. rewrite A1, A2, A3, A4, app_nil_r. reflexivity. }
  destruct a as [| |b ttl|n| |i|i|i|i| | | | | | | | | | | |]; cbn [TracePushModel.step undisturbed] in *; try destruct U.
  - injection ST as <-. split; [unfold steady; auto|]. split; [|cbn; lia]. unfold chain, live. cbn [record got wire handle tasks pend]. rewrite O, append_room by auto. now rewrite !app_assoc.
  - injection ST as <-. apply KEEP; try exact T'; reflexivity.
  - destruct (io s) eqn:IO; try discriminate. destruct (negb (io_cancel s) && conn s); [|discriminate]. injection ST as <-. apply KEEP; try exact T'; reflexivity.
  - (* Wake *) destruct (task_at s i) as [[]|] eqn:TA; try discriminate. injection ST as <-.
    destruct (task_at_spec _ _ _ TA) as (x & X & XP & XC). assert (HA : handle s = Some i) by (apply (t_handle _ T); exists x; repeat split; auto; congruence).
    assert (LV : live s = []) by (rewrite (live_alive _ _ _ HA X), XP; reflexivity).
    revert T'. unfold wake. rewrite EE. set (s1 := set_trace s (on s) (expires s) (skipn limit (pend s))). destruct (firstn limit (pend s)) as [|x0 l0] eqn:BA; intros T'.
    + assert (PE : skipn limit (pend s) = pend s) by (rewrite <- (firstn_skipn limit (pend s)) at 2; now rewrite BA).
      revert T'. unfold goes_on. rewrite (expire_none s1) by exact EX. cbn [s1 set_trace on]. rewrite O. intros T'. split; [unfold steady; cbn; auto|]. split; [|cbn; lia].
      unfold chain. rewrite LV. unfold live, s1. cbn [set_tasks set_trace got wire handle tasks pend]. rewrite HA, (nth_set_same _ _ _ _ X), PE, app_nil_r. reflexivity.
    + revert T'. cbn [s1 set_trace closing]. rewrite CL. intros T'. split; [unfold steady; cbn; auto|]. split; [|cbn; lia].
      unfold chain. rewrite LV. unfold live, s1. cbn [set_tasks set_trace got wire handle tasks pend]. rewrite HA, (nth_set_same _ _ _ _ X). cbn [tp]. rewrite <- BA, firstn_skipn, app_nil_r. reflexivity.
  - (* Write *) destruct (task_at s i) as [[]|] eqn:TA; try discriminate. destruct (lock s) eqn:LK; [discriminate|]. rewrite CN in ST. injection ST as <-.
    destruct (task_at_spec _ _ _ TA) as (x & X & XP & XC). assert (HA : handle s = Some i) by (apply (t_handle _ T); exists x; repeat split; auto; congruence).
    assert (LV : live s = batch) by (rewrite (live_alive _ _ _ HA X), XP; reflexivity).
    split; [unfold steady; cbn; auto|]. split; [|cbn; lia]. unfold chain. rewrite LV. unfold live. cbn [set_lock set_net set_tasks got wire handle tasks pend]. rewrite HA, (nth_set_same _ _ _ _ X), concat_snoc. cbn [tp].
    rewrite app_nil_r, <- !app_assoc. reflexivity.
  - (* Drained *) destruct (task_at s i) as [[]|] eqn:TA; try discriminate. change (conn (set_lock s (release s (ATask i)))) with (conn s) in ST. rewrite CN in ST. injection ST as <-.
    destruct (task_at_spec _ _ _ TA) as (x & X & XP & XC). assert (HA : handle s = Some i) by (apply (t_handle _ T); exists x; repeat split; auto; congruence).
    assert (LV : live s = []) by (rewrite (live_alive _ _ _ HA X), XP; reflexivity).
    revert T'. unfold goes_on. rewrite expire_none by exact EX. cbn [set_lock on]. rewrite O. intros T'. apply KEEP; try exact T'; try reflexivity; try assumption. rewrite LV. unfold live. cbn [set_lock set_tasks handle tasks]. rewrite HA, (nth_set_same _ _ _ _ X). reflexivity.
  - (* Die *) destruct (nth_error (tasks s) i) as [[p c]|] eqn:X; [|discriminate]. destruct c; [|discriminate].
    assert (Z : s' = set_lock (set_tasks s (set_nth i (mkTask TDone true) (tasks s)) (handle s)) (release s (ATask i))) by (destruct p; try discriminate; injection ST as <-; reflexivity). subst s'.
    assert (HN : handle s <> Some i). { intros Z. apply (t_handle _ T) in Z. destruct Z as (y & Y & _ & YC). rewrite X in Y. injection Y as <-. discriminate. }
    apply KEEP; try exact T'; try reflexivity. unfold live. cbn. destruct (handle s) as [j|]; [|reflexivity]. rewrite nth_set_other by congruence. reflexivity.
  - destruct (io s) as [|i| | |] eqn:IO; try discriminate. destruct (nth_error (tasks s) i) as [x|] eqn:X; [|discriminate]. destruct (tp x); try discriminate. injection ST as <-. apply KEEP; try exact T'; reflexivity.
  - destruct (io s) eqn:IO; try discriminate. destruct (lock s) eqn:LK; [discriminate|]. rewrite IC, CN in ST. injection ST as <-. apply KEEP; try exact T'; try reflexivity; assumption.
  - destruct (io s) eqn:IO; try discriminate. rewrite IC in ST. injection ST as <-. apply KEEP; try exact T'; reflexivity.
  - rewrite IC in ST. discriminate.
  - destruct (io s) eqn:IO; try discriminate. rewrite CN in ST. discriminate.
  - destruct (lock s) eqn:LK; [discriminate|]. injection ST as <-. apply KEEP; try exact T'; reflexivity.
  - destruct (lock s) as [[]|] eqn:LK; try discriminate. injection ST as <-. apply KEEP; try exact T'; reflexivity.
  - rewrite CL in ST. discriminate.
  - rewrite CL in ST. discriminate.
  - destruct (wire s) as [|b w] eqn:W; [discriminate|]. injection ST as <-. split; [unfold steady; cbn; auto|]. split; [|cbn; lia]. unfold chain, live. cbn [set_net got wire handle tasks pend]. rewrite W. cbn [concat].
    rewrite app_nil_r, <- !app_assoc. reflexivity.
Qed.

Lemma steady_run l : forall s s', steady s -> Forall undisturbed l -> roomy cap limit s l -> run s l = Some s' ->
  steady s' /\ count s <= count s' /\ chain s' = chain s ++ seq (count s) (count s' - count s).
Proof.
  induction l as [|a l IH]; intros s s' ST U RM R; cbn [TracePushModel.run roomy] in *.
  - injection R as <-. rewrite Nat.sub_diag. cbn. rewrite app_nil_r. auto.
  - apply Forall_cons_iff in U. destruct U as (U1 & U2). destruct RM as (R1 & R2). destruct (step s a) as [s1|] eqn:SS; [|discriminate].
    destruct (steady_step _ _ _ ST U1 R1 SS) as (A & B & C). destruct (IH _ _ A U2 (R2 _ eq_refl) R) as (D & E & F). split; [exact D|]. split; [lia|].
    rewrite F, B, <- app_assoc. f_equal. destruct a; cbn in C; try (rewrite C, Nat.add_0_r; reflexivity).
    replace (count s' - count s) with (S (count s' - count s1)) by lia. cbn. rewrite C, Nat.add_1_r. reflexivity.
Qed.

Lemma run_app l1 l2 s : run s (l1 ++ l2) = match run s l1 with Some s1 => run s1 l2 | None => None end.
Proof. revert s. induction l1 as [|a l1 IH]; intros s; cbn; [reflexivity|]. destruct (step s a); auto. Qed.

Lemma own_run l : forall s s', steady s -> Forall own l -> run s l = Some s' -> steady s' /\ chain s' = chain s.
Proof.
  induction l as [|a l IH]; intros s s' ST U R; cbn [TracePushModel.run] in *; [injection R as <-; auto|].
  apply Forall_cons_iff in U. destruct U as (U1 & U2). destruct (step s a) as [s1|] eqn:S; [|discriminate].
  assert (UA : undisturbed a) by (destruct a; cbn in *; tauto). assert (NR : a = Record -> length (pend s) < cap) by (intros ->; destruct U1).
  destruct (steady_step _ _ _ ST UA NR S) as (A & B & _). destruct (IH _ _ A U2 R) as (D & E). split; [exact D|]. rewrite E, B. destruct a; try apply app_nil_r. destruct U1.
Qed.

(** The push task sleeps, and nobody has the lock. *)
Definition asleep (s : st) : Prop := lock s = None /\ exists i, task_at s i = Some TSleep.

Lemma to_sleep s : steady s -> exists l s', Forall own l /\ run s l = Some s' /\ asleep s'.
Proof.
  intros ST0. pose proof ST0 as (T & O & EX & CL & CN).
  assert (IC : io_cancel s = false) by (destruct (io_cancel s) eqn:Z; [destruct (t_early _ T Z CL)|reflexivity]).
  assert (FREE : exists l s1, Forall own l /\ run s l = Some s1 /\ lock s1 = None).
  { destruct (lock s) as [[j| |]|] eqn:LK.
    - destruct (proj2 (t_drain _ T j) LK) as (x & X & XP). destruct (cancelled x) eqn:XC.
      + exists [Die j]. eexists. split; [repeat constructor|]. cbn. rewrite X. destruct x as [p c]. cbn in *. subst. split; [reflexivity|]. cbn. unfold release. now rewrite LK, Nat.eqb_refl.
      + exists [Drained j]. eexists. split; [repeat constructor|]. cbn. unfold task_at. rewrite X, XC, XP. split; [reflexivity|]. rewrite CN. unfold goes_on. rewrite expire_none by exact EX. cbn. rewrite O. cbn. unfold release. now rewrite LK, Nat.eqb_refl.
    - exists [IoDrained]. eexists. split; [repeat constructor|]. cbn. rewrite (proj2 (t_iodrain _ T) LK), IC. split; [reflexivity|]. cbn. unfold release. now rewrite LK.
    - exists [OtherDrained]. eexists. split; [repeat constructor|]. cbn. rewrite LK. split; reflexivity.
    - exists [], s. repeat split; auto. }
  destruct FREE as (l1 & s1 & F1 & R1 & L1). destruct (own_run _ _ _ ST0 F1 R1) as (ST1 & _). pose proof ST1 as (T1 & O1 & EX1 & CL1 & CN1).
  destruct (t_on _ T1 O1 CL1 CN1) as (i & HA). destruct (proj2 (t_handle _ T1 i) HA) as (x & X & XD & XC).
  assert (TA : task_at s1 i = Some (tp x)) by (unfold task_at; now rewrite X, XC).
  destruct (tp x) eqn:XP.
  - exists l1, s1. split; [exact F1|]. split; [exact R1|]. split; [exact L1|eauto].
  - exists (l1 ++ [Write i; Drained i]). eexists. split; [apply Forall_app; repeat constructor; exact F1|]. rewrite run_app, R1. cbn [TracePushModel.run TracePushModel.step]. rewrite TA, L1, CN1.
    unfold task_at at 1. cbn [set_lock set_net set_tasks tasks]. rewrite (nth_set_same _ _ _ _ X). cbn [cancelled tp conn set_lock set_net set_tasks]. split; [reflexivity|].
    unfold goes_on. rewrite expire_none by exact EX1. cbn [set_lock set_net set_tasks on]. rewrite O1. split; [cbn; now rewrite Nat.eqb_refl|]. exists i. unfold task_at. cbn [set_lock set_net set_tasks tasks].
    rewrite (nth_set_same _ _ _ (mkTask TDrain false)); [reflexivity|]. now apply (nth_set_same _ _ _ x).
  - exfalso. assert (lock s1 = Some (ATask i)) by (apply (t_drain _ T1); eauto). congruence.
  - congruence.
Qed.

Lemma push_round s : 0 < limit -> steady s -> asleep s -> pend s <> [] -> exists l s', Forall own l /\ run s l = Some s' /\ asleep s' /\ pend s' = skipn limit (pend s).
Proof.
  intros LP (T & O & EX & CL & CN) (LK & i & TA) NE. destruct (task_at_spec _ _ _ TA) as (x & X & XP & XC).
  exists [Wake i; Write i; Drained i]. cbn [TracePushModel.run TracePushModel.step]. rewrite TA. unfold wake. rewrite (expire_none _ EX).
  destruct (firstn limit (pend s)) as [|x0 l0] eqn:BA; [destruct limit; [lia|destruct (pend s); [congruence|discriminate]]|].
  cbn [set_trace closing]. rewrite CL. unfold task_at at 1. cbn [set_tasks set_trace tasks lock conn]. rewrite (nth_set_same _ _ _ _ X), LK, CN. cbn [cancelled tp].
  unfold task_at at 1. cbn [set_lock set_net set_tasks set_trace tasks].
  assert (X2 : nth_error (set_nth i (mkTask TDrain false) (set_nth i (mkTask (TLock (x0 :: l0)) false) (tasks s))) i = Some (mkTask TDrain false)) by (eapply nth_set_same; eapply nth_set_same; exact X).
  rewrite X2. cbn [cancelled tp conn set_lock set_net set_tasks]. unfold goes_on. rewrite expire_none by exact EX. cbn [set_lock set_net set_tasks set_trace on]. rewrite O. eexists. split; [repeat constructor|]. split; [reflexivity|]. split; [|reflexivity].
  split; [cbn; now rewrite Nat.eqb_refl|]. exists i. unfold task_at. cbn [set_lock set_net set_tasks set_trace tasks]. rewrite (nth_set_same _ _ _ _ X2). reflexivity.
Qed.

Lemma push_all n : forall s, 0 < limit -> steady s -> asleep s -> length (pend s) <= n -> exists l s', Forall own l /\ run s l = Some s' /\ asleep s' /\ pend s' = [].
Proof.
  induction n as [|n IH]; intros s LP ST AS LN.
  - exists [], s. split; [constructor|]. split; [reflexivity|]. split; [exact AS|]. destruct (pend s); [reflexivity|cbn in LN; lia].
  - destruct (pend s) as [|y q] eqn:P; [exists [], s; split; [constructor|]; split; [reflexivity|]; auto|]. rewrite <- P in LN.
    destruct (push_round s LP ST AS ltac:(congruence)) as (l & s1 & F & R & A1 & P1). destruct (own_run _ _ _ ST F R) as (ST1 & _).
    destruct (IH s1 LP ST1 A1) as (l2 & s2 & F2 & R2 & A2 & P2); [rewrite P1, skipn_length; destruct limit; lia|].
    exists (l ++ l2), s2. split; [apply Forall_app; auto|]. split; [rewrite run_app, R; exact R2|auto].
Qed.

Lemma arrive_all w : forall s, wire s = w -> exists l s', Forall own l /\ run s l = Some s' /\ wire s' = [] /\ pend s' = pend s /\ tasks s' = tasks s /\ lock s' = lock s.
Proof.
  induction w as [|b w IH]; intros s W; [exists [], s; repeat split; auto|].
  destruct (IH (set_net s (conn s) w (got s ++ b) (fetched s)) eq_refl) as (l & s' & F & R & A & B & C & D).
  exists (Arrive :: l), s'. split; [constructor; [exact I|exact F]|]. split; [cbn; rewrite W; exact R|auto].
Qed.

Lemma deliverable s : 0 < limit -> steady s -> exists l s', Forall own l /\ run s l = Some s' /\ settled s' /\ got s' = chain s /\ count s' = count s.
Proof.
  intros LP ST. destruct (to_sleep _ ST) as (l1 & s1 & F1 & R1 & A1). destruct (own_run _ _ _ ST F1 R1) as (ST1 & C1).
  destruct (push_all (length (pend s1)) s1 LP ST1 A1 (le_n _)) as (l2 & s2 & F2 & R2 & A2 & P2). destruct (own_run _ _ _ ST1 F2 R2) as (ST2 & C2).
  destruct (arrive_all _ s2 eq_refl) as (l3 & s3 & F3 & R3 & W3 & P3 & T3 & L3). destruct (own_run _ _ _ ST2 F3 R3) as (ST3 & C3).
  exists (l1 ++ l2 ++ l3), s3. split; [rewrite !Forall_app; auto|]. split; [rewrite !run_app, R1, run_app, R2; exact R3|].
  pose proof ST3 as (T & _). destruct A2 as (_ & i & TA). destruct (task_at_spec _ _ _ TA) as (x & X & XP & XC). rewrite <- T3 in X.
  assert (HA : handle s3 = Some i) by (apply (t_handle _ T); exists x; repeat split; auto; congruence).
  assert (LV : live s3 = []) by (rewrite (live_alive _ _ _ HA X), XP; reflexivity).
  split; [split; [congruence|]; split; [exact W3|]|split].
  - intros j b H. pose proof H as (y & Y & YP & YC). assert (handle s3 = Some j) by (apply (t_handle _ T); exists y; repeat split; auto; congruence).
    assert (j = i) by congruence. subst. congruence.
  - rewrite <- C1, <- C2, <- C3. unfold chain. rewrite W3, LV, P3, P2. cbn. now rewrite app_nil_r.
  - assert (CT : forall l a b, steady a -> Forall own l -> run a l = Some b -> count b = count a).
    { induction l as [|x0 l IH]; intros a b SA FA RA; cbn [TracePushModel.run] in *; [now injection RA as <-|]. apply Forall_cons_iff in FA. destruct FA as (FA1 & FA2). destruct (step a x0) as [a1|] eqn:SS; [|discriminate].
      assert (UA : undisturbed x0) by (destruct x0; cbn in *; tauto). assert (NR : x0 = Record -> length (pend a) < cap) by (intros ->; destruct FA1).
      destruct (steady_step _ _ _ SA UA NR SS) as (SA1 & _ & CC). rewrite (IH _ _ SA1 FA2 RA), CC. destruct x0; try lia. destruct FA1. }
    rewrite (CT l3 s2 s3), (CT l2 s1 s2), (CT l1 s s1); auto.
Qed.

(** ** Closing *)

Definition cinv (s : st) : Prop := closing s = CAwaitIo -> io s = IOEnded \/ io_cancel s = true.

Lemma step_cinv s a s' : tinv s -> cinv s -> timely_step s a -> step s a = Some s' -> cinv s'.
Proof.
  intros T C TM ST. unfold cinv in *.
  assert (CI : ~ waits_for_task s -> closing (cancel_io s) = CAwaitIo -> io (cancel_io s) = IOEnded \/ io_cancel (cancel_io s) = true).
  { intros N _. unfold cancel_io. destruct (io s) as [|i| | |] eqn:IO; cbn; auto. destruct N. exists i. exact IO. }
  assert (GO : forall t i, closing (goes_on t i) = closing t /\ io (goes_on t i) = io t /\ io_cancel (goes_on t i) = io_cancel t).
  { intros t i. unfold goes_on, task_ends. destruct (expire_rest t) as (E1 & E2 & E3 & E4 & E5 & E6 & _). destruct (on (expire t)); cbn; auto. }
  destruct a as [| |b ttl|n| |i|i|i|i| | | | | | | | | | | |]; cbn [TracePushModel.step timely_step] in *.
  - injection ST as <-. exact C.
  - injection ST as <-. exact C.
  - destruct (io s) eqn:IO; try discriminate. destruct (negb (io_cancel s) && conn s) eqn:Z; [|discriminate]. injection ST as <-. apply andb_prop in Z. destruct Z as (Z & _). apply negb_true_iff in Z.
    intros CL. exfalso. assert (CL' : closing s = CAwaitIo). { revert CL. unfold control, ensure. destruct b; cbn; [destruct (match handle s with Some i => _ | None => false end); cbn; auto|destruct (handle s); cbn; auto]. }
    destruct (C CL'); congruence.
  - destruct (io s) eqn:IO; try discriminate. destruct (negb (io_cancel s) && conn s) eqn:Z; [|discriminate]. injection ST as <-. apply andb_prop in Z. destruct Z as (Z & _). apply negb_true_iff in Z.
    intros CL. exfalso. destruct (expire_rest s) as (E1 & E2 & E3 & E4 & E5 & E6 & _). cbn in CL. rewrite E6 in CL. destruct (C CL); congruence.
  - destruct (io s) eqn:IO; try discriminate. destruct (negb (io_cancel s) && conn s) eqn:Z; [|discriminate]. injection ST as <-. apply andb_prop in Z. destruct Z as (Z & _). apply negb_true_iff in Z.
    intros CL. exfalso. destruct (C CL); congruence.
  - destruct (task_at s i) as [[]|] eqn:TA; try discriminate. injection ST as <-. unfold wake. destruct (expire_rest s) as (E1 & E2 & E3 & E4 & E5 & E6 & _).
    set (s1 := set_trace (expire s) (on (expire s)) (expires (expire s)) (skipn limit (pend (expire s)))).
    assert (Z : closing s1 = closing s /\ io s1 = io s /\ io_cancel s1 = io_cancel s) by (cbn; auto). destruct Z as (Z1 & Z2 & Z3). destruct (firstn limit (pend (expire s))).
    + destruct (GO s1 i) as (G1 & G2 & G3). rewrite G1, G2, G3, Z1, Z2, Z3. exact C.
    + destruct (closing s1) eqn:CS; unfold task_ends; cbn [set_tasks closing io io_cancel]; rewrite CS, Z2, Z3; rewrite <- Z1 in C; try exact C; discriminate.
  - destruct (task_at s i) as [[]|] eqn:TA; try discriminate. destruct (lock s); [discriminate|]. destruct (conn s); injection ST as <-; exact C.
  - destruct (task_at s i) as [[]|] eqn:TA; try discriminate. injection ST as <-. change (conn (set_lock s (release s (ATask i)))) with (conn s). destruct (conn s); [|exact C]. destruct (GO (set_lock s (release s (ATask i))) i) as (G1 & G2 & G3). rewrite G1, G2, G3. exact C.
  - destruct (nth_error (tasks s) i) as [[p c]|]; [|discriminate]. destruct c; [|discriminate]. destruct p; try discriminate; injection ST as <-; exact C.
  - destruct (io s) as [|i| | |] eqn:IO; try discriminate. destruct (nth_error (tasks s) i) as [x|]; [|discriminate]. destruct (tp x); try discriminate. injection ST as <-. cbn. intros CL. destruct (C CL) as [Z|Z]; [discriminate|auto].
  - destruct (io s) eqn:IO; try discriminate. destruct (lock s); [discriminate|]. destruct (io_cancel s) eqn:IC; [discriminate|]. injection ST as <-. intros CL. exfalso. assert (CL' : closing s = CAwaitIo) by (destruct (conn s); exact CL). destruct (C CL'); discriminate.
  - destruct (io s) eqn:IO; try discriminate. destruct (io_cancel s) eqn:IC; [discriminate|]. injection ST as <-. intros CL. exfalso. destruct (C CL); discriminate.
  - destruct (io_cancel s) eqn:IC; [|discriminate]. injection ST as <-. cbn. auto.
  - destruct (io s) eqn:IO; try discriminate. destruct (conn s || io_cancel s); [discriminate|]. injection ST as <-. cbn. auto.
  - destruct (lock s); [discriminate|]. injection ST as <-. exact C.
  - destruct (lock s) as [[]|]; try discriminate. injection ST as <-. exact C.
  - destruct (closing s) eqn:CL; try discriminate. injection ST as <-. unfold close. destruct (handle s) eqn:HA; [cbn; discriminate|]. apply CI. auto.
  - destruct (closing s) as [|i| |] eqn:CL; try discriminate. destruct (nth_error (tasks s) i) as [x|]; [|discriminate]. destruct (tp x); try discriminate. injection ST as <-. apply CI. exact TM.
  - destruct (closing s) eqn:CL; try discriminate. destruct (io s); try discriminate. injection ST as <-. cbn. discriminate.
  - injection ST as <-. exact C.
  - destruct (wire s); [discriminate|]. injection ST as <-. exact C.
Qed.

Lemma run_cinv l : forall s s', tinv s -> cinv s -> timely cap limit s l -> run s l = Some s' -> cinv s'.
Proof.
  induction l as [|a l IH]; intros s s' T C TM R; cbn [TracePushModel.run timely] in *; [now injection R as <-|]. destruct TM as (TM1 & TM2). destruct (step s a) as [s1|] eqn:S; [|discriminate].
  apply (IH s1); auto; [eapply step_tinv; eauto|eapply step_cinv; eauto].
Qed.

(** A cancelled task ends. *)
Lemma kill s i : dying (tasks s) i -> exists l s', Forall unwinding l /\ length l <= 1 /\ run s l = Some s' /\ (exists x, nth_error (tasks s') i = Some x /\ tp x = TDone) /\
  io s' = io s /\ io_cancel s' = io_cancel s /\ closing s' = closing s /\ (forall j, dying (tasks s) j -> dying (tasks s') j).
Proof.
  intros (x & X & XC). destruct x as [p c]. cbn in XC. subst. assert (D : {p = TDone} + {p <> TDone}) by (destruct p; (left; reflexivity) || (right; discriminate)). destruct D as [->|ND].
  - exists [], s. repeat split; auto. exists (mkTask TDone true). auto.
  - exists [Die i]. eexists. split; [repeat constructor|]. split; [cbn; lia|]. cbn. rewrite X. destruct p; try congruence; (split; [reflexivity|]); cbn; (split; [eexists; split; [eapply nth_set_same; exact X|reflexivity]|]); repeat split; auto; intros j Z; apply (dying_set _ _ _ _ _ X); (destruct (Nat.eq_dec j i); [left; auto|right; auto]).
Qed.

Lemma close_io s : tinv s -> closing s = CAwaitIo -> io s = IOEnded \/ io_cancel s = true -> exists l s', Forall unwinding l /\ length l <= 2 /\ run s l = Some s' /\ closing s' = CDone.
Proof.
  intros T CL [IO|IC].
  - exists [CloseEnd]. eexists. split; [repeat constructor|]. split; [cbn; lia|]. cbn. rewrite CL, IO. split; reflexivity.
  - exists [IoCancelled; CloseEnd]. eexists. split; [repeat constructor|]. split; [cbn; lia|]. cbn. rewrite IC. cbn. rewrite CL. split; reflexivity.
Qed.

Lemma closes s : tinv s -> cinv s -> closing s <> CNo -> exists l s', Forall unwinding l /\ length l <= 6 /\ run s l = Some s' /\ closing s' = CDone.
Proof.
  intros T C NC. destruct (closing s) as [|i| |] eqn:CL; [congruence| | |exists [], s; repeat split; auto; cbn; lia].
  - (* first the loop, if it waits for a task *)
    assert (P1 : exists l s1, Forall unwinding l /\ length l <= 2 /\ run s l = Some s1 /\ closing s1 = CAwaitTask i /\ (forall j, io s1 <> IOAwait j)).
    { destruct (io s) as [|j| | |] eqn:IO; try (exists [], s; split; [constructor|]; split; [cbn; lia|]; split; [reflexivity|]; split; [exact CL|intros; congruence]).
      destruct (kill s j (t_io _ T j IO)) as (l & s1 & F & L & R & (x & X & XP) & I1 & I2 & I3 & _).
      exists (l ++ [IoResume]). eexists. split; [apply Forall_app; split; [exact F|repeat constructor]|]. split; [rewrite app_length; cbn; lia|]. rewrite run_app, R. cbn. rewrite I1, IO, X, XP. split; [reflexivity|]. cbn. split; [congruence|discriminate]. }
    destruct P1 as (l1 & s1 & F1 & L1 & R1 & C1 & N1). pose proof (run_tinv _ _ _ T R1) as T1.
    destruct (kill s1 i (t_close _ T1 i C1)) as (l2 & s2 & F2 & L2 & R2 & (x & X & XP) & I1 & I2 & I3 & _). pose proof (run_tinv _ _ _ T1 R2) as T2.
    assert (R3 : step s2 CloseResume = Some (cancel_io s2)) by (cbn; rewrite I3, C1, X, XP; reflexivity).
    pose proof (step_tinv _ _ _ T2 R3) as T3.
    assert (C3 : closing (cancel_io s2) = CAwaitIo) by (unfold cancel_io; destruct (io s2); reflexivity).
    assert (W3 : io (cancel_io s2) = IOEnded \/ io_cancel (cancel_io s2) = true).
    { unfold cancel_io. destruct (io s2) as [|j| | |] eqn:IO; cbn; auto. exfalso. apply (N1 j). congruence. }
    destruct (close_io _ T3 C3 W3) as (l4 & s4 & F4 & L4 & R4 & D4).
    exists (l1 ++ l2 ++ CloseResume :: l4), s4. split; [rewrite !Forall_app; repeat split; auto; constructor; [exact I|exact F4]|]. split; [rewrite !app_length; cbn; lia|]. split; [|exact D4].
    rewrite run_app, R1, run_app, R2. cbn [TracePushModel.run]. rewrite R3. exact R4.
  - destruct (close_io _ T CL (C CL)) as (l & s' & F & L & R & D). exists l, s'. repeat split; auto.
Qed.

(** ** Connected *)
Lemma step_connected s a s' : connected a -> step s a = Some s' -> closing s = CNo -> conn s = true -> closing s' = CNo /\ conn s' = true.
Proof.
  intros CA ST CL CN.
  assert (EX : closing (expire s) = CNo /\ conn (expire s) = true) by (destruct (expire_rest s) as (E1 & E2 & E3 & E4 & E5 & E6 & E7 & _); split; congruence).
  assert (GO : forall t i, closing t = CNo -> conn t = true -> closing (goes_on t i) = CNo /\ conn (goes_on t i) = true).
  { intros t i A B. unfold goes_on, task_ends. destruct (expire_rest t) as (E1 & E2 & E3 & E4 & E5 & E6 & E7 & _). destruct (on (expire t)); cbn; split; congruence. }
  destruct a as [| |b ttl|n| |i|i|i|i| | | | | | | | | | | |]; cbn [TracePushModel.step connected] in *; try destruct CA.
  - injection ST as <-. auto.
  - injection ST as <-. auto.
  - destruct (io s); try discriminate. destruct (negb (io_cancel s) && conn s); [|discriminate]. injection ST as <-. unfold control, ensure. destruct b.
    + match goal with |- context [if ?c then _ else _] => destruct c end; cbn; auto.
    + destruct (handle (set_trace_control s false ttl)); cbn; auto.
  - destruct (io s); try discriminate. destruct (negb (io_cancel s) && conn s); [|discriminate]. injection ST as <-. exact EX.
  - destruct (io s); try discriminate. destruct (negb (io_cancel s) && conn s); [|discriminate]. injection ST as <-. auto.
  - destruct (task_at s i) as [[]|]; try discriminate. injection ST as <-. unfold wake. destruct (firstn limit (pend (expire s))).
    + apply GO; apply EX.
    + cbn [set_trace closing]. destruct (closing (expire s)) eqn:Z; try (destruct EX; congruence). cbn. rewrite Z. tauto.
  - destruct (task_at s i) as [[]|]; try discriminate. destruct (lock s); [discriminate|]. rewrite CN in ST. injection ST as <-. auto.
  - destruct (task_at s i) as [[]|]; try discriminate. injection ST as <-. change (conn (set_lock s (release s (ATask i)))) with (conn s). rewrite CN. apply GO; auto.
  - destruct (nth_error (tasks s) i) as [[p c]|]; [|discriminate]. destruct c; [|discriminate]. destruct p; try discriminate; injection ST as <-; auto.
  - destruct (io s) as [|i| | |]; try discriminate. destruct (nth_error (tasks s) i) as [x|]; [|discriminate]. destruct (tp x); try discriminate. injection ST as <-. auto.
  - destruct (io s); try discriminate. destruct (lock s); [discriminate|]. destruct (io_cancel s); [discriminate|]. rewrite CN in ST. injection ST as <-. auto.
  - destruct (io s); try discriminate. destruct (io_cancel s); [discriminate|]. injection ST as <-. auto.
  - destruct (io_cancel s); [|discriminate]. injection ST as <-. auto.
  - destruct (io s); try discriminate. destruct (conn s || io_cancel s); [discriminate|]. injection ST as <-. auto.
  - destruct (lock s); [discriminate|]. injection ST as <-. auto.
  - destruct (lock s) as [[]|]; try discriminate. injection ST as <-. auto.
  - rewrite CL in ST. discriminate.
  - rewrite CL in ST. discriminate.
  - destruct (wire s); [discriminate|]. injection ST as <-. auto.
Qed.

Lemma run_connected l : forall s s', Forall connected l -> run s l = Some s' -> closing s = CNo -> conn s = true -> closing s' = CNo /\ conn s' = true.
Proof.
  induction l as [|a l IH]; intros s s' F R CL CN; cbn [TracePushModel.run] in *; [injection R as <-; auto|]. apply Forall_cons_iff in F. destruct F as (F1 & F2).
  destruct (step s a) as [s1|] eqn:SS; [|discriminate]. destruct (step_connected _ _ _ F1 SS CL CN). eauto.
Qed.

(** Once tracing is switched on, by a process that is connected. *)
Lemma steady_on l0 s0 s1 : Forall connected l0 -> run init l0 = Some s0 -> step s0 (Control true None) = Some s1 -> steady s1 /\ count s1 = count s0.
Proof.
  intros F R0 ST. pose proof (run_tinv _ _ _ (tinv_init) R0) as T0. destruct (run_connected _ _ _ F R0 eq_refl eq_refl) as (CL & CN).
  pose proof (step_tinv _ _ _ T0 ST) as T1. destruct (step_connected s0 (Control true None) s1 I ST CL CN) as (CL1 & CN1).
  cbn [TracePushModel.step] in ST. destruct (io s0); try discriminate. destruct (negb (io_cancel s0) && conn s0); [|discriminate]. injection ST as <-.
  assert (Z : on (control s0 true None) = true /\ expires (control s0 true None) = None /\ count (control s0 true None) = count s0).
  { unfold control, ensure. match goal with |- context [if ?c then _ else _] => destruct c end; cbn; auto. }
  destruct Z as (Z1 & Z2 & Z3). split; [|exact Z3]. unfold steady. auto.
Qed.

Lemma where_it_is s k : tinv s -> In k (chain s) -> In k (got s) \/ (exists b, In b (wire s) /\ In k b) \/ (exists i b, in_hand s i b /\ In k b) \/ In k (pend s).
Proof.
  intros T H. unfold chain in H. rewrite !in_app_iff in H. destruct H as [H|[H|[H|H]]]; auto.
  - apply in_concat in H. destruct H as (b & B1 & B2). right. left. eauto.
  - right. right. left. unfold live in H. destruct (handle s) as [i|] eqn:HA; [|destruct H]. destruct (proj2 (t_handle _ T i) HA) as (x & X & XD & XC). rewrite X in H. destruct (tp x) eqn:XP; try destruct H; exists i, batch; (split; [exists x; auto|cbn; auto]).
Qed.

Lemma fetched_stays l : forall s s' x, tinv s -> run s l = Some s' -> In x (fetched s) -> In x (fetched s').
Proof.
  induction l as [|a l IH]; intros s s' x T R X; cbn [TracePushModel.run] in *; [now injection R as <-|]. destruct (step s a) as [s1|] eqn:SS; [|discriminate].
  apply (IH s1 s' x); [eapply step_tinv; eauto|exact R|]. destruct (places _ _ _ T SS) as [(_ & ->)|[(n & _ & _ & _ & _ & _ & q & _ & F & _)|(_ & F & _)]]; [exact X|rewrite F; apply in_or_app; auto|now rewrite F].
Qed.

(** Nothing but the loss of the connection frees a close() that waits for a loop that is not cancelled. *)
Lemma trapped s a s' : closing s = CAwaitIo -> conn s = true -> io s <> IOEnded -> io_cancel s = false -> a <> Lost -> step s a = Some s' ->
  closing s' = CAwaitIo /\ conn s' = true /\ io s' <> IOEnded /\ io_cancel s' = false.
Proof.
  intros CL CN IO IC NL ST.
  assert (GO : forall t i, closing (goes_on t i) = closing t /\ conn (goes_on t i) = conn t /\ io (goes_on t i) = io t /\ io_cancel (goes_on t i) = io_cancel t).
  { intros t i. unfold goes_on, task_ends. destruct (expire_rest t) as (E1 & E2 & E3 & E4 & E5 & E6 & E7 & _). destruct (on (expire t)); cbn; auto. }
  destruct (expire_rest s) as (E1 & E2 & E3 & E4 & E5 & E6 & E7 & _).
  destruct a as [| |b ttl|n| |i|i|i|i| | | | | | | | | | | |]; cbn [TracePushModel.step] in *; try congruence.
  - injection ST as <-. auto.
  - injection ST as <-. auto.
  - destruct (io s) eqn:IO'; try discriminate. destruct (negb (io_cancel s) && conn s); [|discriminate]. injection ST as <-. unfold control, ensure. destruct b.
    + match goal with |- context [if ?c then _ else _] => destruct c end; cbn; repeat split; auto; discriminate.
    + destruct (handle (set_trace_control s false ttl)); cbn; repeat split; auto; discriminate.
  - destruct (io s) eqn:IO'; try discriminate. destruct (negb (io_cancel s) && conn s); [|discriminate]. injection ST as <-. cbn. repeat split; try congruence; discriminate.
  - destruct (io s) eqn:IO'; try discriminate. destruct (negb (io_cancel s) && conn s); [|discriminate]. injection ST as <-. cbn. repeat split; try congruence; discriminate.
  - destruct (task_at s i) as [[]|]; try discriminate. injection ST as <-. unfold wake. destruct (firstn limit (pend (expire s))).
    + destruct (GO (set_trace (expire s) (on (expire s)) (expires (expire s)) (skipn limit (pend (expire s)))) i) as (A & B & C & D). rewrite A, B, C, D. cbn. repeat split; congruence.
    + cbn [set_trace closing]. rewrite E6, CL. cbn. repeat split; congruence.
  - destruct (task_at s i) as [[]|]; try discriminate. destruct (lock s); [discriminate|]. rewrite CN in ST. injection ST as <-. auto.
  - destruct (task_at s i) as [[]|]; try discriminate. injection ST as <-. change (conn (set_lock s (release s (ATask i)))) with (conn s). rewrite CN.
    destruct (GO (set_lock s (release s (ATask i))) i) as (A & B & C & D). rewrite A, B, C, D. auto.
  - destruct (nth_error (tasks s) i) as [[p c]|]; [|discriminate]. destruct c; [|discriminate]. destruct p; try discriminate; injection ST as <-; auto.
  - destruct (io s) as [|i| | |]; try discriminate. destruct (nth_error (tasks s) i) as [x|]; [|discriminate]. destruct (tp x); try discriminate. injection ST as <-. cbn. repeat split; auto; discriminate.
  - destruct (io s); try discriminate. destruct (lock s); [discriminate|]. rewrite IC, CN in ST. injection ST as <-. cbn. repeat split; auto; discriminate.
  - destruct (io s); try discriminate. rewrite IC, CN in ST. injection ST as <-. cbn. repeat split; auto; discriminate.
  - rewrite IC in ST. discriminate.
  - destruct (io s); try discriminate. rewrite CN in ST. discriminate.
  - destruct (lock s); [discriminate|]. injection ST as <-. auto.
  - destruct (lock s) as [[]|]; try discriminate. injection ST as <-. auto.
  - rewrite CL in ST. discriminate.
  - rewrite CL in ST. discriminate.
  - rewrite CL in ST. destruct (io s); try discriminate. congruence.
  - destruct (wire s); [discriminate|]. injection ST as <-. auto.
Qed.

(** ** After close() *)

Lemma goes_on_rest s i : closing (goes_on s i) = closing s /\ io (goes_on s i) = io s /\ wire (goes_on s i) = wire s /\ got (goes_on s i) = got s /\
  exists x, (x = TSleep \/ x = TDone) /\ tasks (goes_on s i) = set_nth i (mkTask x false) (tasks s).
Proof.
  unfold goes_on, expire, set_trace_control. destruct (expires s) as [t|]; [destruct (TracePushModel.now s <? t)|]; cbn;
    try destruct (on s); cbn; repeat split; try (exists TSleep; split; [now left|reflexivity]); exists TDone; (split; [now right|reflexivity]).
Qed.

Lemma wake_rest s i : closing (wake limit s i) = closing s /\ io (wake limit s i) = io s /\ wire (wake limit s i) = wire s /\ got (wake limit s i) = got s /\
  exists x, (closing s = CDone -> x = TSleep \/ x = TDone) /\ tasks (wake limit s i) = set_nth i (mkTask x false) (tasks s).
Proof.
  destruct (expire_rest s) as (E1 & E2 & E3 & E4 & E5 & E6 & E7 & E8 & E9 & E10 & E11).
  unfold wake. destruct (firstn limit (pend (expire s))) as [|b bs].
  - match goal with |- context [goes_on ?s' i] => destruct (goes_on_rest s' i) as (A & B & C & D & x & X & Y); rewrite A, B, C, D, Y end.
    cbn. repeat split; try assumption. exists x. split; [intros _; exact X|now rewrite E1].
  - cbn [set_trace closing]. destruct (closing (expire s)) eqn:CL; cbn; repeat split; try congruence;
      eexists; (split; [|rewrite E1; reflexivity]); intros K; try (exfalso; congruence). now right.
Qed.

Definition quiet (s : st) : Prop := closing s = CDone /\ io s = IOEnded /\ forall i b, ~ in_hand s i b.

Lemma quiet_set s s' i x : quiet s -> closing s' = closing s -> io s' = io s -> tasks s' = set_nth i x (tasks s) ->
  (forall b, tp x = TLock b -> cancelled x = true) -> quiet s'.
Proof.
  intros (A & B & C) H1 H2 H3 H4. repeat split; try congruence. intros j b (y & Y & Z & W). rewrite H3 in Y.
  destruct (Nat.eq_dec i j) as [<-|N].
  - destruct (nth_error (tasks s) i) as [z|] eqn:E; [rewrite (nth_set_same _ _ _ _ E) in Y; injection Y as <-; specialize (H4 b Z); congruence|].
    assert (L : length (set_nth i x (tasks s)) = length (tasks s)).
    { clear. revert i. induction (tasks s) as [|t l IH]; intros [|i]; cbn; auto. }
    apply nth_error_None in E. rewrite <- L in E. apply nth_error_None in E. congruence.
  - rewrite nth_set_other in Y by exact N. apply (C j b). now exists y.
Qed.

Lemma quiet_same s s' : quiet s -> closing s' = closing s -> io s' = io s -> tasks s' = tasks s -> quiet s'.
Proof. intros (A & B & C) H1 H2 H3. repeat split; try congruence. intros i b (x & X). apply (C i b). exists x. now rewrite <- H3. Qed.

Definition less (s s' : st) : Prop := exists rest, (got s' ++ concat (wire s')) ++ rest = got s ++ concat (wire s).

Lemma less_same s s' : got s' = got s -> wire s' = wire s -> less s s'.
Proof. intros A B. exists []. now rewrite A, B, app_nil_r. Qed.

Lemma quiet_step s a s' : quiet s -> step s a = Some s' -> quiet s' /\ less s s'.
Proof.
  intros Q E. pose proof Q as (QC & QI & QH). destruct a; cbn [TracePushModel.step] in E; rewrite ?QI, ?QC in E; try discriminate E.
  - injection E as <-. split; [now apply (quiet_same s)|now apply less_same].
  - injection E as <-. split; [now apply (quiet_same s)|now apply less_same].
  - destruct (task_at s i) as [[]|] eqn:T; try discriminate E. injection E as <-.
    destruct (wake_rest s i) as (A & B & C & D & x & X & Y). split; [|now apply less_same].
    apply (quiet_set s _ i (mkTask x false)); auto. intros b Z. cbn in Z. destruct (X QC); congruence.
  - destruct (task_at s i) as [[]|] eqn:T; try discriminate E. exfalso. destruct (task_at_spec _ _ _ T) as (x & X1 & X2 & X3).
    apply (QH i batch). now exists x.
  - destruct (task_at s i) as [[]|] eqn:T; try discriminate E. injection E as <-. cbn [set_lock conn]. destruct (conn s).
    + destruct (goes_on_rest (set_lock s (release s (ATask i))) i) as (A & B & C & D & x & X & Y). split; [|now apply less_same].
      apply (quiet_set s _ i (mkTask x false)); auto. intros b Z. cbn in Z. destruct X; congruence.
    + split; [|now apply less_same]. apply (quiet_set s _ i (mkTask TDone false)); [exact Q|reflexivity|reflexivity|reflexivity|intros b Z; discriminate Z].
  - destruct (nth_error (tasks s) i) as [[p [|]]|] eqn:T; try discriminate E.
    destruct p; try discriminate E; injection E as <-; (split; [|now apply less_same]);
      (apply (quiet_set s _ i (mkTask TDone true)); [exact Q|reflexivity|reflexivity|reflexivity|reflexivity]).
  - destruct (io_cancel s); [|discriminate E]. injection E as <-. split; [|now apply less_same]. apply (quiet_same s); auto.
  - destruct (lock s); [discriminate E|]. injection E as <-. split; [now apply (quiet_same s)|now apply less_same].
  - destruct (lock s) as [[]|]; try discriminate E. injection E as <-. split; [now apply (quiet_same s)|now apply less_same].
  - injection E as <-. split; [now apply (quiet_same s)|]. exists (concat (wire s)). cbn. now rewrite app_nil_r.
  - destruct (wire s) as [|b w] eqn:W; [discriminate E|]. injection E as <-. split; [now apply (quiet_same s)|].
    exists []. cbn. rewrite W. cbn. now rewrite app_nil_r, app_assoc.
Qed.

Lemma quiet_run l : forall s s', quiet s -> run s l = Some s' -> less s s'.
Proof.
  induction l as [|a l IH]; intros s s' Q R; cbn [TracePushModel.run] in R.
  - injection R as <-. now apply less_same.
  - destruct (step s a) as [s1|] eqn:E; [|discriminate R]. destruct (quiet_step _ _ _ Q E) as (Q1 & r1 & L1).
    destruct (IH _ _ Q1 R) as (r2 & L2). exists (r2 ++ r1). now rewrite app_assoc, L2.
Qed.

Lemma done_ended l : forall s s', (closing s = CDone -> io s = IOEnded) -> run s l = Some s' -> closing s' = CDone -> io s' = IOEnded.
Proof.
  induction l as [|a l IH]; intros s s' K R; cbn [TracePushModel.run] in R; [now injection R as <-|].
  destruct (step s a) as [s1|] eqn:E; [|discriminate R]. apply (IH s1 s'); [|exact R]. clear IH R. intros C1.
  destruct a; cbn [TracePushModel.step] in E.
  all: try match goal with H : context [wake limit ?z ?i] |- _ => destruct (wake_rest z i) as (W1 & W2 & _) end.
  all: try match goal with H : context [goes_on ?z ?i] |- _ => destruct (goes_on_rest z i) as (W1 & W2 & _) end.
  all: unfold control, fetch, ensure, close, cancel_io, set_trace_control in E.
  all: try match goal with H : context [expire ?z] |- _ => destruct (expire_rest z) as (_ & _ & X3 & _ & _ & X6 & _) end.
  all: repeat match goal with
    | H : context [match ?x with _ => _ end] |- _ => destruct x eqn:?; try discriminate H
    end.
  all: injection E as <-; cbn in *; try congruence; auto.
  all: try (rewrite ?W1, ?W2 in *; cbn in *; auto; congruence).
  all: try (specialize (K C1); congruence).
  all: rewrite ?X6 in C1; specialize (K C1); congruence.
Qed.
End Proofs.
