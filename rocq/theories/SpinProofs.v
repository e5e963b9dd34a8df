(** Proofs for C76. *)
From Coq Require Import List Arith Bool Lia.
From Verif Require Import Dict SpinModel SpinSpec.
Import ListNotations.

Section Proofs.
Variable n : nat.
Variable zc : nat -> bool.
Notation step := (step n zc).
Notation steps := (steps n zc).

Lemma steps_app s es es' :
  steps s (es ++ es') = match steps s es with Some s1 => steps s1 es' | None => None end.
Proof. revert s. induction es as [|e es IH]; intros s; cbn; [reflexivity|]. destruct (step s e); auto. Qed.

Lemma steps_snoc s es e s' :
  steps s (es ++ [e]) = Some s' -> exists s1, steps s es = Some s1 /\ step s1 e = Some s'.
Proof.
  rewrite steps_app. destruct (steps s es) as [s1|]; [|discriminate]. intros H. exists s1. split; [reflexivity|].
  cbn in H. destruct (step s1 e); exact H.
Qed.

Lemma upd_eq {A : Type} (f : nat -> A) i x : upd f i x i = x.
Proof. unfold upd. now rewrite Nat.eqb_refl. Qed.

Lemma upd_neq {A : Type} (f : nat -> A) i j x : j <> i -> upd f i x j = f j.
Proof. intros H. unfold upd. apply Nat.eqb_neq in H. now rewrite H. Qed.

Lemma all_spec f : all n f = true <-> forall i, i < n -> f i = true.
Proof.
  unfold all. rewrite forallb_forall. split; intros H i K.
  - apply H. apply in_seq. lia.
  - apply in_seq in K. apply H. lia.
Qed.

Lemma any_spec f : any n f = true <-> exists i, i < n /\ f i = true.
Proof.
  unfold any. rewrite existsb_exists. split.
  - intros (i & K & L). apply in_seq in K. exists i. split; [lia|exact L].
  - intros (i & K & L). exists i. split; [apply in_seq; lia|exact L].
Qed.

Lemma distinct_spec l : distinct l = true <-> NoDup l.
Proof.
  induction l as [|i l IH]; cbn; [split; [constructor|reflexivity]|].
  rewrite andb_true_iff, negb_true_iff, mem_false, IH. split.
  - intros [H1 H2]. now constructor.
  - intros H. inversion H; auto.
Qed.

Lemma lists_spec ts ord : lists n ts ord = true <->
  NoDup ord /\ (forall i, In i ord -> i < n /\ is_done (ts i) = true) /\ (forall i, i < n -> is_done (ts i) = true -> In i ord).
Proof.
  unfold lists. rewrite !andb_true_iff, distinct_spec, forallb_forall, all_spec. split.
  - intros ((H1 & H2) & H3). split; [exact H1|]. split.
    + intros i K. specialize (H2 i K). apply andb_true_iff in H2. destruct H2 as [H2 H4].
      apply Nat.ltb_lt in H2. auto.
    + intros i K L. specialize (H3 i K). rewrite L in H3. cbn in H3. now apply mem_In.
  - intros (H1 & H2 & H3). split; [split; [exact H1|]|].
    + intros i K. destruct (H2 i K) as [H4 H5]. rewrite H5. apply Nat.ltb_lt in H4. now rewrite H4.
    + intros i K. destruct (is_done (ts i)) eqn:E; [|reflexivity]. cbn. apply mem_In. auto.
Qed.

(** * Taking a notification *)
Definition taken (r : option (note * bool)) : list note := match r with Some (m, _) => [m] | None => [] end.

Lemma take_spec K C q sk r q' : take K C q = (sk, r, q') ->
  q = sk ++ taken r ++ q' /\ (forall m, In m sk -> ~ In (fst m) K) /\
  match r with Some (m, b) => In (fst m) K /\ b = mem m C | None => q' = [] end.
Proof.
  revert sk r q'. induction q as [|m q IH]; cbn; intros sk r q' H.
  - injection H as <- <- <-. split; [reflexivity|]. split; [intros m []|reflexivity].
  - destruct (mem (fst m) K) eqn:E.
    + injection H as <- <- <-. split; [reflexivity|]. split; [intros x []|]. split; [now apply mem_In|reflexivity].
    + destruct (take K C q) as [[sk1 r1] q1] eqn:T. injection H as <- <- <-.
      destruct (IH _ _ _ eq_refl) as (H1 & H2 & H3). split; [cbn; now rewrite H1 at 1|]. split; [|exact H3].
      intros x [<-|K1]; [now apply mem_false|auto].
Qed.

(** * What has arrived is dealt with, held, or still queued *)
Definition pick (i : nat) (rs : list (nat * note)) : list note :=
  flat_map (fun jm => if fst jm =? i then [snd jm] else []) rs.

Definition holds (t : task) : list note := match t with Done (Got m) => [m] | _ => [] end.

Definition held (i : nat) (p : phase) : list note :=
  match p with
  | Out => []
  | Waiting _ ts => holds (ts i)
  | Gathering _ rs ts => pick i rs ++ holds (ts i)
  | Calling rs => pick i rs
  | InCallback _ _ rs => pick i rs
  end.

Definition well (p : phase) : Prop :=
  match p with
  | Out => True
  | Waiting _ ts => (forall i, ts i <> Collected) /\ (forall i, n <= i -> ts i = Fresh)
  | Gathering _ rs ts =>
      (forall i m, In (i, m) rs -> i < n /\ ts i = Collected) /\ (forall i, n <= i -> ts i = Fresh) /\
      (forall i, i < n -> ts i <> Fresh)
  | Calling rs => rs <> []
  | InCallback _ _ _ => True
  end.

Lemma dealt_app i a b : dealt i (a ++ b) = dealt i a ++ dealt i b.
Proof. apply flat_map_app. Qed.
Lemma arrived_app i a b : arrived i (a ++ b) = arrived i a ++ arrived i b.
Proof. apply flat_map_app. Qed.
Lemma pick_app i a b : pick i (a ++ b) = pick i a ++ pick i b.
Proof. apply flat_map_app. Qed.

Lemma dealt_skips i j sk : dealt i (map (OSkip j) sk) = if j =? i then sk else [].
Proof.
  induction sk as [|m sk IH]; cbn; [now destruct (j =? i)|]. fold (dealt i). unfold dealt in IH. rewrite IH.
  now destruct (j =? i).
Qed.

Lemma dealt_drops i rs : dealt i (drops rs) = pick i rs.
Proof.
  unfold dealt, drops, pick. induction rs as [|[j m] rs IH]; cbn; [reflexivity|]. rewrite IH. now destruct (j =? i).
Qed.

Lemma pick_none i rs : ~ In i (map fst rs) -> pick i rs = [].
Proof.
  unfold pick. induction rs as [|[j m] rs IH]; cbn; [reflexivity|]. intros H.
  destruct (j =? i) eqn:E; [apply Nat.eqb_eq in E; exfalso; apply H; now left|]. apply IH. intros K. apply H. now right.
Qed.

Lemma pick_results i ts ord : NoDup ord ->
  pick i (results ts ord) = if in_dec Nat.eq_dec i ord then holds (ts i) else [].
Proof.
  induction ord as [|j ord IH]; intros H; [reflexivity|]. inversion H as [|? ? H1 H2]; subst.
  unfold results in *. cbn [flat_map]. rewrite pick_app, (IH H2). clear IH.
  assert (E : pick i (match ts j with Done (Got m) => [(j, m)] | _ => [] end) = if j =? i then holds (ts j) else []).
  { destruct (ts j) as [| |[m| |]|]; cbn; destruct (j =? i); reflexivity. }
  rewrite E. destruct (j =? i) eqn:F.
  - apply Nat.eqb_eq in F. subst. destruct (in_dec Nat.eq_dec i ord) as [K|K]; [contradiction|].
    destruct (in_dec Nat.eq_dec i (i :: ord)) as [L|L]; [apply app_nil_r|]. exfalso. apply L. now left.
  - apply Nat.eqb_neq in F. cbn [app]. destruct (in_dec Nat.eq_dec i ord) as [K|K];
      destruct (in_dec Nat.eq_dec i (j :: ord)) as [L|L]; auto.
    + exfalso. apply L. now right.
    + destruct L as [L|L]; [contradiction|contradiction].
Qed.

Lemma pick_lists i ts ord : lists n ts ord = true -> (forall j, n <= j -> ts j = Fresh) ->
  pick i (results ts ord) = holds (ts i).
Proof.
  intros H F. apply lists_spec in H. destruct H as (H1 & H2 & H3). rewrite pick_results by exact H1.
  destruct (in_dec Nat.eq_dec i ord) as [K|K]; [reflexivity|].
  destruct (le_lt_dec n i) as [L|L]; [now rewrite (F i L)|].
  destruct (is_done (ts i)) eqn:D; [exfalso; apply K; auto|]. destruct (ts i) as [| |o|]; [reflexivity|reflexivity|discriminate|reflexivity].
Qed.

Lemma pick_everybody i ts : (forall j, n <= j -> ts j = Fresh) -> pick i (results ts (seq 0 n)) = holds (ts i).
Proof.
  intros F. rewrite pick_results by apply seq_NoDup. destruct (in_dec Nat.eq_dec i (seq 0 n)) as [K|K]; [reflexivity|].
  rewrite F; [reflexivity|]. destruct (le_lt_dec n i) as [L|L]; [exact L|]. exfalso. apply K. apply in_seq. lia.
Qed.

Lemma results_in i m ts ord : In (i, m) (results ts ord) -> In i ord /\ ts i = Done (Got m).
Proof.
  unfold results. rewrite in_flat_map. intros (j & H1 & H2). destruct (ts j) as [| |[m1| |]|] eqn:E; try contradiction.
  destruct H2 as [H2|[]]. injection H2 as <- <-. auto.
Qed.

Definition Inv (es : list event) (s : state) : Prop :=
  well (now s) /\ forall i, arrived i es = dealt i (log s) ++ held i (now s) ++ queue (subs s i).

Definition same_but (s s1 : state) (i : nat) : Prop :=
  cached s1 = cached s /\ now s1 = now s /\ (forall j, j <> i -> subs s1 j = subs s j) /\
  known (subs s1 i) = known (subs s i).

Lemma receive_spec s i s1 t : receive s i = (s1, t) ->
  same_but s s1 i /\ exists l, log s1 = log s ++ l /\
  queue (subs s i) = dealt i l ++ holds t ++ queue (subs s1 i) /\
  (forall j, j <> i -> dealt j l = []) /\ t <> Collected /\ t <> Fresh /\
  (t = Blocked -> queue (subs s1 i) = []).
Proof.
  unfold same_but, receive. destruct (take (known (subs s i)) (cached s) (queue (subs s i))) as [[sk r] q] eqn:T.
  destruct (take_spec _ _ _ _ _ _ T) as (T1 & T2 & T3). intros H.
  assert (N : forall j, j <> i -> (i =? j) = false) by (intros j J; apply Nat.eqb_neq; auto).
  destruct r as [[m b]|]; [destruct b|]; injection H as <- <-; cbn [subs cached now log known queue taken] in *;
    (split; [split; [reflexivity|]; split; [reflexivity|]; split;
             [intros j J; now apply upd_neq|now rewrite upd_eq]|]); rewrite upd_eq; cbn [queue].
  - exists (map (OSkip i) sk ++ []). split; [reflexivity|].
    rewrite dealt_app, dealt_skips, Nat.eqb_refl. cbn. rewrite app_nil_r. split; [exact T1|].
    split; [|split; [discriminate|split; [discriminate|discriminate]]].
    intros j J. rewrite dealt_app, dealt_skips, (N j J). reflexivity.
  - exists (map (OSkip i) sk ++ [OMiss i m; ORelease i m]). split; [reflexivity|].
    rewrite dealt_app, dealt_skips, Nat.eqb_refl. cbn. rewrite Nat.eqb_refl, <- app_assoc. split; [exact T1|].
    split; [|split; [discriminate|split; [discriminate|discriminate]]].
    intros j J. rewrite dealt_app, dealt_skips, (N j J). cbn. now rewrite (N j J).
  - exists (map (OSkip i) sk ++ []). split; [reflexivity|].
    rewrite dealt_app, dealt_skips, Nat.eqb_refl. cbn. rewrite app_nil_r. split; [exact T1|].
    split; [|split; [discriminate|split; [discriminate|auto]]].
    intros j J. rewrite dealt_app, dealt_skips, (N j J). reflexivity.
Qed.

Lemma arrived_other i es e : (forall j m, e <> Arrive j m) -> arrived i (es ++ [e]) = arrived i es.
Proof.
  intros H. rewrite arrived_app. destruct e; cbn; try apply app_nil_r. exfalso. eapply H. reflexivity.
Qed.

Lemma pick_collect rs ts i : (forall j m, In (j, m) rs -> j < n /\ ts j = Collected) -> ts i <> Collected -> pick i rs = [].
Proof.
  intros H K. apply pick_none. intros L. apply in_map_iff in L. destruct L as ([j m] & L1 & L2). cbn in L1. subst.
  apply K. now apply (H i m).
Qed.

Ltac other := rewrite arrived_other by (intros ? ? ?; discriminate).

Lemma go_on_inv i s rs l : dealt i (log (go_on s rs l)) = dealt i (log s) ++ dealt i l /\ held i (now (go_on s rs l)) = pick i rs
  /\ well (now (go_on s rs l)) /\ subs (go_on s rs l) = subs s.
Proof.
  unfold go_on. destruct rs as [|r rs]; cbn [set_now log now held well subs];
    rewrite ?dealt_app; cbn; rewrite ?app_nil_r; repeat split; discriminate.
Qed.

Lemma inv_step es s e s' : Inv es s -> step s e = Some s' -> Inv (es ++ [e]) s'.
Proof.
  intros [W I] H. destruct e as [i m|i ps|m|lim|c|b| |i|ord|i|late ord]; cbn [SpinModel.step] in H.
  - (* Arrive *)
    destruct (i <? n) eqn:L; [|discriminate]. injection H as <-. split; [exact W|]. intros j. cbn.
    rewrite arrived_app, (I j). cbn. rewrite app_nil_r. destruct (i =? j) eqn:E.
    + apply Nat.eqb_eq in E. subst. rewrite upd_eq. cbn. now rewrite !app_assoc.
    + apply Nat.eqb_neq in E. rewrite upd_neq by auto. apply app_nil_r.
  - destruct (i <? n) eqn:L; [|discriminate]. injection H as <-. split; [exact W|]. intros j. cbn. other. rewrite (I j).
    destruct (Nat.eq_dec j i) as [->|N]; [now rewrite upd_eq|now rewrite upd_neq].
  - injection H as <-. split; [exact W|]. intros j. other. apply I.
  - (* Spin *)
    destruct (now s) eqn:P; try discriminate. destruct (n =? 0).
    + destruct lim; [|discriminate]. injection H as <-. split; [exact Logic.I|]. intros j. other. rewrite (I j). cbn [set_now log now held subs queue].
      rewrite dealt_app. cbn. now rewrite app_nil_r.
    + injection H as <-. split; [cbn; split; [discriminate|reflexivity]|]. intros j. other. rewrite (I j). cbn [set_now log now held subs queue].
      rewrite dealt_app. cbn. now rewrite app_nil_r.
  - (* Call *)
    destruct (now s) as [| | |[|[i m] rs]|] eqn:P; try discriminate. destruct (zc i || c).
    + injection H as <-. split; [exact Logic.I|]. intros j. other. rewrite (I j). cbn [set_now log now held subs queue]. rewrite dealt_app. cbn.
      destruct (i =? j); cbn; now rewrite <- ?app_assoc.
    + injection H as <-. split; [apply (go_on_inv 0)|]. intros j. other.
      destruct (go_on_inv j s rs [OUncopied i m; ORelease i m]) as (G1 & G2 & _ & G3). rewrite G1, G2, G3, (I j).
      cbn. destruct (i =? j); cbn; now rewrite <- ?app_assoc.
  - (* CallbackEnds *)
    destruct b; destruct (now s) as [| | | |i m rs] eqn:P; try discriminate; injection H as <-.
    + split; [exact Logic.I|]. intros j. other. rewrite (I j). cbn [set_now log now held subs queue]. rewrite dealt_app.
      match goal with |- _ = (_ ++ dealt j ?x) ++ _ => change x with ([OEnd i m; ORelease i m] ++ drops rs ++ [ORaise]) end.
      rewrite !dealt_app, dealt_drops. cbn. rewrite app_nil_r. now rewrite <- app_assoc.
    + split; [apply (go_on_inv 0)|]. intros j. other.
      destruct (go_on_inv j s rs [OEnd i m; ORelease i m]) as (G1 & G2 & _ & G3). rewrite G1, G2, G3, (I j).
      cbn. now rewrite app_nil_r.
  - (* Interrupt *)
    destruct (now s) as [|lim ts|lim rs ts|rs|i m rs] eqn:P; try discriminate; injection H as <-;
      (split; [exact Logic.I|]); intros j; other; rewrite (I j); cbn [set_now log now held subs queue]; rewrite ?dealt_app, dealt_drops; cbn; rewrite ?app_nil_r.
    + rewrite pick_everybody by apply W. now rewrite <- app_assoc.
    + rewrite pick_app, pick_everybody by apply W. now rewrite <- !app_assoc.
    + now rewrite <- app_assoc.
  - (* Run *)
    destruct (now s) as [|lim ts|lim rs ts| |] eqn:P; try discriminate.
    + destruct ((i <? n) && (is_fresh (ts i) || is_blocked (ts i) && negb (eqd (queue (subs s i)) []))) eqn:G; [|discriminate].
      apply andb_true_iff in G. destruct G as [G1 G2]. apply Nat.ltb_lt in G1.
      destruct (receive s i) as [s1 t] eqn:R. injection H as <-.
      destruct (receive_spec _ _ _ _ R) as ((_ & _ & S1 & _) & l & S2 & S3 & S4 & S5 & S6 & _).
      destruct W as [W1 W2]. split.
      * cbn. split; intros j.
        -- unfold upd. destruct (j =? i); auto.
        -- intros J. rewrite upd_neq by lia. auto.
      * intros j. other. rewrite (I j). cbn [set_now log now held subs queue]. rewrite app_nil_r, S2, dealt_app. destruct (Nat.eq_dec j i) as [->|N].
        -- rewrite upd_eq, S3. assert (E : holds (ts i) = []).
           { destruct (ts i) as [| |o|]; try reflexivity. discriminate G2. }
           rewrite E. cbn. now rewrite <- !app_assoc.
        -- rewrite upd_neq, S4, app_nil_r, S1 by auto. reflexivity.
    + destruct ((i <? n) && is_blocked (ts i) && negb (eqd (queue (subs s i)) [])) eqn:G; [|discriminate].
      apply andb_true_iff in G. destruct G as [G _]. apply andb_true_iff in G. destruct G as [G1 G2]. apply Nat.ltb_lt in G1.
      destruct (receive s i) as [s1 t] eqn:R. injection H as <-.
      destruct (receive_spec _ _ _ _ R) as ((_ & _ & S1 & _) & l & S2 & S3 & S4 & S5 & S6 & _).
      destruct W as (W1 & W2 & W3).
      assert (TB : ts i = Blocked) by (destruct (ts i); try discriminate; reflexivity). split.
      * cbn. split; [|split].
        -- intros j m J. destruct (W1 j m J) as [J1 J2]. split; [exact J1|]. rewrite upd_neq; [exact J2|]. intros ->. congruence.
        -- intros j J. rewrite upd_neq by lia. auto.
        -- intros j J. unfold upd. destruct (j =? i); auto.
      * intros j. other. rewrite (I j). cbn [set_now log now held subs queue]. rewrite app_nil_r, S2, dealt_app. destruct (Nat.eq_dec j i) as [->|N].
        -- rewrite upd_eq, S3, TB. rewrite (pick_collect rs ts i W1) by congruence. cbn. now rewrite <- !app_assoc.
        -- rewrite upd_neq, S4, app_nil_r, S1 by auto. reflexivity.
  - (* WaitOver *)
    destruct (now s) as [|lim ts|lim rs ts| |] eqn:P; try discriminate.
    destruct (all n (fun i => negb (is_fresh (ts i))) && (any n (fun i => is_done (ts i)) || lim) && lists n ts ord) eqn:G; [|discriminate].
    apply andb_true_iff in G. destruct G as [G1 G2]. apply andb_true_iff in G1. destruct G1 as [G1 G3].
    injection H as <-. destruct W as [W1 W2]. split.
    + cbn. split; [|split].
      * intros j m J. apply results_in in J. destruct J as [J1 J2]. apply lists_spec in G2. destruct G2 as (_ & G2 & _).
        destruct (G2 j J1) as [J3 J4]. split; [exact J3|]. unfold collect. now rewrite J4.
      * intros j J. unfold collect. now rewrite (W2 j J).
      * intros j J. unfold collect. destruct (ts j) eqn:T; try discriminate. rewrite all_spec in G1. specialize (G1 j J).
        rewrite T in G1. discriminate.
    + intros j. other. rewrite (I j). cbn [set_now log now held subs queue]. rewrite app_nil_r, (pick_lists j ts ord G2 W2).
      assert (E : holds (collect ts j) = []).
      { unfold collect. destruct (ts j) as [| |o|]; reflexivity. }
      rewrite E. now rewrite app_nil_r.
  - (* Cancel *)
    destruct (now s) as [|lim ts|lim rs ts| |] eqn:P; try discriminate.
    destruct ((i <? n) && is_blocked (ts i)) eqn:G; [|discriminate]. apply andb_true_iff in G. destruct G as [G1 G2].
    apply Nat.ltb_lt in G1. injection H as <-. destruct W as (W1 & W2 & W3).
    assert (TB : ts i = Blocked) by (destruct (ts i); try discriminate; reflexivity). split.
    + cbn. split; [|split].
      * intros j m J. destruct (W1 j m J) as [J1 J2]. split; [exact J1|]. rewrite upd_neq; [exact J2|]. intros ->. congruence.
      * intros j J. rewrite upd_neq by lia. auto.
      * intros j J. unfold upd. destruct (j =? i); [discriminate|auto].
    + intros j. other. rewrite (I j). cbn [set_now log now held subs queue]. rewrite app_nil_r. unfold upd. destruct (j =? i) eqn:E; [|reflexivity].
      apply Nat.eqb_eq in E. subst. now rewrite TB.
  - (* Resume *)
    destruct (now s) as [|lim ts|lim rs ts| |] eqn:P; try discriminate.
    destruct (all n (fun i => negb (is_blocked (ts i))) && lists n ts ord && implb late lim) eqn:G; [|discriminate].
    apply andb_true_iff in G. destruct G as [G _]. apply andb_true_iff in G. destruct G as [G1 G2]. destruct W as (W1 & W2 & W3).
    assert (E : forall j, pick j (rs ++ results ts ord) = held j (now s)).
    { intros j. rewrite pick_app, (pick_lists j ts ord G2 W2), P. reflexivity. }
    rewrite <- P in *.
    destruct (rs ++ results ts ord) as [|x l] eqn:R.
    + assert (E1 : forall j, held j (now s) = []) by (intros j; rewrite <- E; reflexivity).
      destruct late; injection H as <-.
      * split; [exact Logic.I|]. intros j. other. rewrite (I j), E1. cbn [set_now log now held subs queue]. rewrite dealt_app. cbn. now rewrite app_nil_r.
      * split; [cbn; split; [discriminate|reflexivity]|]. intros j. other. rewrite (I j), E1. cbn [set_now log now held subs queue]. now rewrite app_nil_r.
    + injection H as <-. split; [discriminate|]. intros j. other. rewrite (I j), <- E. cbn [set_now log now held subs].
      now rewrite app_nil_r.
Qed.

Lemma inv_run k es s : steps (start k) es = Some s -> Inv es s.
Proof.
  revert s. induction es as [|e es IH] using rev_ind; intros s H.
  - injection H as <-. split; [exact Logic.I|]. intros i. reflexivity.
  - apply steps_snoc in H. destruct H as (s1 & H1 & H2). exact (inv_step _ _ _ _ (IH _ H1) H2).
Qed.

(** * What one step adds to what is seen *)
Lemma receive_log s i s1 t : receive s i = (s1, t) -> exists sk,
  (log s1 = log s ++ map (OSkip i) sk \/ exists m, log s1 = log s ++ map (OSkip i) sk ++ [OMiss i m; ORelease i m]
     /\ In m (queue (subs s i)) /\ ~ In m (cached s)) /\
  (forall m, In m sk -> In m (queue (subs s i)) /\ ~ In (fst m) (known (subs s i))).
Proof.
  unfold receive. destruct (take (known (subs s i)) (cached s) (queue (subs s i))) as [[sk r] q] eqn:T.
  destruct (take_spec _ _ _ _ _ _ T) as (T1 & T2 & T3). intros H. exists sk.
  assert (Q : forall m, In m sk -> In m (queue (subs s i)) /\ ~ In (fst m) (known (subs s i))).
  { intros m M. split; [|auto]. rewrite T1. apply in_or_app. now left. }
  destruct r as [[m b]|]; [destruct b|]; injection H as <- <-; cbn [log]; rewrite ?app_nil_r; (split; [|exact Q]).
  - now left.
  - right. exists m. split; [reflexivity|]. cbn in T1. split; [rewrite T1; apply in_or_app; right; now left|].
    apply mem_false. now symmetry.
  - now left.
Qed.

Ltac crack H :=
  repeat match type of H with
  | match ?x with _ => _ end = Some _ =>
      match x with
      | receive _ _ => let s1 := fresh "s1" in let t := fresh "t" in let R := fresh "R" in destruct x as [s1 t] eqn:R
      | now ?s => let P := fresh "P" in destruct x as [|? ?|? ? ?|[|[? ?] ?]|? ? ?] eqn:P
      | _ ++ _ => let R := fresh "R" in destruct x eqn:R
      | _ => let G := fresh "G" in destruct x eqn:G
      end
  end; try discriminate H.

Lemma go_on_log s rs l : log (go_on s rs l) = log s ++ l ++ (match rs with [] => [OReturn true] | _ => [] end).
Proof. unfold go_on. destruct rs; cbn; [reflexivity|]. now rewrite app_nil_r. Qed.

Lemma step_log s e s' : step s e = Some s' -> exists l, log s' = log s ++ l.
Proof.
  intros H. destruct e as [i m|i ps|m|lim|c|b| |i|ord|i|late ord]; cbn [SpinModel.step] in H; crack H; injection H as <-;
    try (exists []; cbn; now rewrite app_nil_r); try (eexists; reflexivity); try (rewrite go_on_log; eexists; reflexivity).
  all: destruct (receive_spec _ _ _ _ R) as (_ & l & L & _); exists l; cbn; now rewrite app_nil_r.
Qed.

Lemma steps_log s es s' : steps s es = Some s' -> exists l, log s' = log s ++ l.
Proof.
  revert s. induction es as [|e es IH]; intros s H; cbn in H.
  - injection H as <-. exists []. now rewrite app_nil_r.
  - destruct (step s e) as [s1|] eqn:E; [|discriminate]. destruct (step_log _ _ _ E) as [l1 L1].
    destruct (IH _ H) as [l2 L2]. exists (l1 ++ l2). rewrite L2, L1. now rewrite app_assoc.
Qed.

(** * Nothing is lost unless somebody interrupts *)
Definition no_drop (l : list obs) : Prop := forall i m, ~ In (ODrop i m) l.

Lemma no_drop_app a b : no_drop a -> no_drop b -> no_drop (a ++ b).
Proof. intros A B i m K. apply in_app_or in K. destruct K; [eapply A|eapply B]; eassumption. Qed.

Lemma no_drop_skips i sk : no_drop (map (OSkip i) sk).
Proof. intros j m K. apply in_map_iff in K. destruct K as (x & K & _). discriminate. Qed.

Ltac nd := let K := fresh in intros ? ? K; cbn in K; repeat (destruct K as [K|K]; [discriminate K|]); exact K.

Lemma step_no_drop s e s' : step s e = Some s' -> e <> Interrupt -> e <> CallbackEnds true -> no_drop (log s) -> no_drop (log s').
Proof.
  intros H N1 N2 D. destruct e as [i m|i ps|m|lim|c|b| |i|ord|i|late ord]; cbn [SpinModel.step] in H; crack H; try congruence; injection H as <-;
    try exact D; try (cbn; apply no_drop_app; [exact D|nd]).
  - rewrite go_on_log. apply no_drop_app; [exact D|]. apply no_drop_app; [nd|]. destruct l; nd.
  - rewrite go_on_log. apply no_drop_app; [exact D|]. apply no_drop_app; [nd|]. destruct rs; nd.
  - destruct (receive_log _ _ _ _ R) as (sk & [L|(m & L & _)] & _); cbn; rewrite L, app_nil_r; (apply no_drop_app; [exact D|]).
    + apply no_drop_skips.
    + apply no_drop_app; [apply no_drop_skips|nd].
  - destruct (receive_log _ _ _ _ R) as (sk & [L|(m & L & _)] & _); cbn; rewrite L, app_nil_r; (apply no_drop_app; [exact D|]).
    + apply no_drop_skips.
    + apply no_drop_app; [apply no_drop_skips|nd].
Qed.

Lemma run_no_drop k es s : steps (start k) es = Some s -> undisturbed es -> no_drop (log s).
Proof.
  revert s. induction es as [|e es IH] using rev_ind; intros s H [U1 U2].
  - injection H as <-. intros i m [].
  - apply steps_snoc in H. destruct H as (s1 & H1 & H2).
    apply (step_no_drop _ _ _ H2).
    + intros ->. apply U1. apply in_or_app. right. now left.
    + intros ->. apply U2. apply in_or_app. right. now left.
    + apply IH; [exact H1|]. split; intros K; [apply U1|apply U2]; apply in_or_app; now left.
Qed.

(** * Callback, end, release *)
Definition Tidy (s : state) : Prop :=
  match now s with
  | InCallback i m _ => exists l, log s = l ++ [OCall i m] /\ tidy l
  | _ => tidy (log s)
  end.

Lemma tidy_skips l i sk : tidy l -> tidy (l ++ map (OSkip i) sk).
Proof.
  revert l. induction sk as [|m sk IH]; intros l T; cbn; [now rewrite app_nil_r|].
  replace (l ++ OSkip i m :: map (OSkip i) sk) with ((l ++ [OSkip i m]) ++ map (OSkip i) sk) by now rewrite <- app_assoc.
  apply IH. now constructor.
Qed.

Lemma tidy_drops l rs : tidy l -> tidy (l ++ drops rs).
Proof.
  revert l. induction rs as [|[i m] rs IH]; intros l T; cbn; [now rewrite app_nil_r|].
  replace (l ++ ODrop i m :: map (fun im => ODrop (fst im) (snd im)) rs) with ((l ++ [ODrop i m]) ++ drops rs)
    by now rewrite <- app_assoc.
  apply IH. now constructor.
Qed.

Lemma tidy_receive s i s1 t : receive s i = (s1, t) -> tidy (log s) -> tidy (log s1).
Proof.
  intros R T. destruct (receive_log _ _ _ _ R) as (sk & [L|(m & L & _)] & _); rewrite L.
  - now apply tidy_skips.
  - rewrite app_assoc. apply tidy_miss. now apply tidy_skips.
Qed.

Lemma tidy_go_on s rs l : tidy (log s ++ l) -> Tidy (go_on s rs l).
Proof.
  intros T. unfold Tidy, go_on. destruct rs; cbn; [|exact T]. rewrite app_assoc. now constructor.
Qed.

Lemma tidy_step s e s' : Tidy s -> step s e = Some s' -> Tidy s'.
Proof.
  unfold Tidy at 1. intros T H. destruct e as [i m|i ps|m|lim|c|b| |i|ord|i|late ord]; cbn [SpinModel.step] in H.
  1,2,3: crack H; injection H as <-; unfold Tidy; cbn; exact T.
  all: crack H; injection H as <-; unfold Tidy; cbn [set_now now log]; rewrite ?app_nil_r; try exact T.
  - replace (log s ++ [OSpin true; OReturn false]) with ((log s ++ [OSpin true]) ++ [OReturn false]) by now rewrite <- app_assoc.
    now repeat constructor.
  - now constructor.
  - exists (log s). auto.
  - apply tidy_go_on. now constructor.
  - destruct T as (l & L & T). rewrite L, <- app_assoc. cbn.
    replace (l ++ OCall i m :: OEnd i m :: ORelease i m :: drops rs ++ [ORaise])
      with (((l ++ [OCall i m; OEnd i m; ORelease i m]) ++ drops rs) ++ [ORaise]) by now rewrite <- !app_assoc.
    constructor. apply tidy_drops. now constructor.
  - destruct T as (l & L & T). apply tidy_go_on. rewrite L, <- app_assoc. now constructor.
  - rewrite app_assoc. constructor. now apply tidy_drops.
  - rewrite app_assoc. constructor. now apply tidy_drops.
  - constructor. exact T.
  - change (tidy (log s ++ drops ((n0, p) :: l) ++ [ORaise])). rewrite app_assoc. constructor. now apply tidy_drops.
  - exact (tidy_receive _ _ _ _ R T).
  - exact (tidy_receive _ _ _ _ R T).
  - now constructor.
Qed.

Lemma tidy_run k es s : steps (start k) es = Some s -> Tidy s.
Proof.
  revert s. induction es as [|e es IH] using rev_ind; intros s H.
  - injection H as <-. constructor.
  - apply steps_snoc in H. destruct H as (s1 & H1 & H2). exact (tidy_step _ _ _ (IH _ H1) H2).
Qed.

(** * What spin_once answers *)
Fixpoint lastly (lim some : bool) (l : list obs) : bool * bool :=
  match l with
  | [] => (lim, some)
  | OSpin b :: r => lastly b false r
  | (OCall _ _ | OUncopied _ _) :: r => lastly lim true r
  | _ :: r => lastly lim some r
  end.

Lemma lastly_app a b x y : lastly x y (a ++ b) = lastly (fst (lastly x y a)) (snd (lastly x y a)) b.
Proof. revert x y. induction a as [|o a IH]; intros x y; [reflexivity|]. destruct o; cbn; apply IH. Qed.

Lemma answers_app a b x y : answers x y (a ++ b) <-> answers x y a /\ answers (fst (lastly x y a)) (snd (lastly x y a)) b.
Proof.
  revert x y. induction a as [|o a IH]; intros x y; [cbn; tauto|]. destruct o; cbn; try apply IH. rewrite IH. tauto.
Qed.

(** Observations that leave the reading alone. *)
Definition quiet (o : obs) : bool :=
  match o with OSkip _ _ | OMiss _ _ | OEnd _ _ | ORelease _ _ | ODrop _ _ | ORaise => true | _ => false end.

Lemma quiet_lastly l x y : forallb quiet l = true -> lastly x y l = (x, y).
Proof. induction l as [|o l IH]; cbn; [reflexivity|]. destruct o; try discriminate; exact IH. Qed.
Lemma quiet_answers l x y : forallb quiet l = true -> answers x y l.
Proof. induction l as [|o l IH]; cbn; [auto|]. destruct o; try discriminate; exact IH. Qed.

Lemma quiet_skips i sk : forallb quiet (map (OSkip i) sk) = true.
Proof. apply forallb_forall. intros o H. apply in_map_iff in H. destruct H as (m & <- & _). reflexivity. Qed.
Lemma quiet_drops rs : forallb quiet (drops rs ++ [ORaise]) = true.
Proof.
  apply forallb_forall. intros o H. apply in_app_or in H. destruct H as [H|[<-|[]]]; [|reflexivity].
  apply in_map_iff in H. destruct H as (m & <- & _). reflexivity.
Qed.
Lemma quiet_receive s i s1 t : receive s i = (s1, t) -> exists l, log s1 = log s ++ l /\ forallb quiet l = true.
Proof.
  intros R. destruct (receive_log _ _ _ _ R) as (sk & [L|(m & L & _)] & _); rewrite L; eexists; (split; [reflexivity|]).
  - apply quiet_skips.
  - rewrite forallb_app, quiet_skips. reflexivity.
Qed.

Section Answers.
Variable x y : bool.

Definition Ans (s : state) : Prop :=
  answers x y (log s) /\
  match now s with
  | Waiting lim _ | Gathering lim _ _ => lastly x y (log s) = (lim, false)
  | InCallback _ _ _ => snd (lastly x y (log s)) = true
  | _ => True
  end.

Lemma ans_quiet s l : answers x y (log s) -> forallb quiet l = true ->
  answers x y (log s ++ l) /\ lastly x y (log s ++ l) = lastly x y (log s).
Proof.
  intros A Q. rewrite answers_app, lastly_app, (quiet_lastly l) by exact Q. split; [|now destruct (lastly x y (log s))].
  split; [exact A|]. now apply quiet_answers.
Qed.

Lemma ans_go_on s rs l : answers x y (log s ++ l) -> snd (lastly x y (log s ++ l)) = true -> Ans (go_on s rs l).
Proof.
  intros A L. unfold Ans, go_on. destruct rs; cbn [set_now log now]; [|split; [exact A|exact Logic.I]].
  rewrite app_assoc. split; [|exact Logic.I]. rewrite answers_app. split; [exact A|]. cbn. rewrite L. repeat split. discriminate.
Qed.

Lemma ans_step s e s' : Ans s -> step s e = Some s' -> Ans s'.
Proof.
  unfold Ans at 1. intros [A T] H. destruct e as [i m|i ps|m|lim|c|b| |i|ord|i|late ord]; cbn [SpinModel.step] in H.
  1,2,3: crack H; injection H as <-; unfold Ans; cbn [now log]; auto.
  all: crack H; injection H as <-; unfold Ans; cbn [set_now now log]; rewrite ?app_nil_r; try (split; [exact A|exact T]).
  - split; [|exact Logic.I]. rewrite answers_app. split; [exact A|]. cbn. auto.
  - rewrite answers_app, lastly_app. split; [split; [exact A|exact Logic.I]|reflexivity].
  - rewrite answers_app, lastly_app. split; [split; [exact A|exact Logic.I]|reflexivity].
  - apply ans_go_on; rewrite ?answers_app, ?lastly_app; cbn; auto.
  - split; [|exact Logic.I]. apply (ans_quiet s (OEnd i m :: ORelease i m :: drops rs ++ [ORaise])); [exact A|]. cbn. apply quiet_drops.
  - destruct (ans_quiet s [OEnd i m; ORelease i m] A eq_refl) as [A1 A2]. apply ans_go_on; [exact A1|]. now rewrite A2.
  - split; [|exact Logic.I]. apply ans_quiet; [exact A|apply quiet_drops].
  - split; [|exact Logic.I]. apply ans_quiet; [exact A|apply quiet_drops].
  - split; [|exact Logic.I]. apply (ans_quiet s (drops [] ++ [ORaise])); [exact A|apply quiet_drops].
  - split; [|exact Logic.I]. apply (ans_quiet s (drops ((n0, p) :: l) ++ [ORaise])); [exact A|apply quiet_drops].
  - destruct (quiet_receive _ _ _ _ R) as (l & L & Q). rewrite L. destruct (ans_quiet s l A Q) as [A1 A2]. rewrite A2. auto.
  - destruct (quiet_receive _ _ _ _ R) as (l & L & Q). rewrite L. destruct (ans_quiet s l A Q) as [A1 A2]. rewrite A2. auto.
  - split; [|exact Logic.I]. rewrite answers_app, T. split; [exact A|]. cbn.
    apply andb_true_iff in G. destruct G as [_ G]. cbn in G. auto.
  - split; [exact A|exact Logic.I].
Qed.

Lemma ans_run k es s : steps (start k) es = Some s -> Ans s.
Proof.
  revert s. induction es as [|e es IH] using rev_ind; intros s H.
  - injection H as <-. split; exact Logic.I.
  - apply steps_snoc in H. destruct H as (s1 & H1 & H2). exact (ans_step _ _ _ (IH _ H1) H2).
Qed.
End Answers.

(** * Why a message is not given to the callback *)
Definition Why (k : nat -> list nat) (es : list event) (s : state) : Prop :=
  (forall i m, In m (queue (subs s i)) -> In m (cached s) \/ In (Evict m) es) /\
  (forall i p, ~ In p (known (subs s i)) -> ~ In p (k i) \/ exists ps, In (Publishers i ps) es /\ ~ In p ps) /\
  (forall i m, In (OMiss i m) (log s) -> In (Evict m) es) /\
  (forall i m, In (OSkip i m) (log s) -> ~ In (fst m) (k i) \/ exists ps, In (Publishers i ps) es /\ ~ In (fst m) ps) /\
  (forall i m, In (OUncopied i m) (log s) -> zc i = false /\ In (Call false) es).

Lemma in_snoc {A : Type} (x a : A) l : In x l -> In x (l ++ [a]).
Proof. intros H. apply in_or_app. now left. Qed.

(** Steps that change neither queues, publishers nor caches and note none of the three reasons. *)
Lemma why_same k es e s s' l : Why k es s -> subs s' = subs s -> cached s' = cached s -> log s' = log s ++ l ->
  (forall i m, ~ In (OMiss i m) l) -> (forall i m, ~ In (OSkip i m) l) ->
  (forall i m, In (OUncopied i m) l -> zc i = false /\ In (Call false) (es ++ [e])) -> Why k (es ++ [e]) s'.
Proof.
  intros (W1 & W2 & W3 & W4 & W5) E1 E2 E3 N1 N2 N3. unfold Why. rewrite E1, E2, E3. split; [|split; [|split; [|split]]].
  - intros i m M. destruct (W1 i m M); [now left|right; now apply in_snoc].
  - intros i p M. destruct (W2 i p M) as [M1|(ps & M1 & M2)]; [now left|right]. exists ps. split; [now apply in_snoc|exact M2].
  - intros i m M. apply in_app_or in M. destruct M as [M|M]; [apply in_snoc; eauto|now apply N1 in M].
  - intros i m M. apply in_app_or in M. destruct M as [M|M]; [|now apply N2 in M].
    destruct (W4 i m M) as [M1|(ps & M1 & M2)]; [now left|right]. exists ps. split; [now apply in_snoc|exact M2].
  - intros i m M. apply in_app_or in M. destruct M as [M|M]; [|now apply (N3 i m)]. destruct (W5 i m M) as [M1 M2]. split; [exact M1|now apply in_snoc].
Qed.

Lemma why_receive k es e s i s1 t : Why k es s -> receive s i = (s1, t) -> Why k (es ++ [e]) s1.
Proof.
  intros (W1 & W2 & W3 & W4 & W5) R. destruct (receive_spec _ _ _ _ R) as ((C & _ & O & K) & l & L & Q & _).
  destruct (receive_log _ _ _ _ R) as (sk & L2 & S). unfold Why. rewrite C.
  assert (E : forall o, In o (log s1) -> In o (log s) \/ (exists m, o = OSkip i m /\ In m sk) \/
    (exists m, In m (queue (subs s i)) /\ ~ In m (cached s) /\ (o = OMiss i m \/ o = ORelease i m))).
  { intros o M. destruct L2 as [L2|(m & L2 & L3 & L4)]; rewrite L2 in M; apply in_app_or in M; (destruct M as [M|M]; [now left|right]).
    - apply in_map_iff in M. destruct M as (m & <- & M). left. eauto.
    - apply in_app_or in M. destruct M as [M|M].
      + apply in_map_iff in M. destruct M as (x & <- & M). left. eauto.
      + right. exists m. split; [exact L3|]. split; [exact L4|]. destruct M as [<-|[<-|[]]]; auto. }
  split; [|split; [|split; [|split]]].
  - intros j m M. assert (M1 : In m (queue (subs s j))).
    { destruct (Nat.eq_dec j i) as [->|N]; [|now rewrite <- O]. rewrite Q. apply in_or_app. right. apply in_or_app. now right. }
    destruct (W1 j m M1); [now left|right; now apply in_snoc].
  - intros j p M. assert (M1 : ~ In p (known (subs s j))).
    { destruct (Nat.eq_dec j i) as [->|N]; [now rewrite <- K|now rewrite <- O]. }
    destruct (W2 j p M1) as [M2|(ps & M2 & M3)]; [now left|right]. exists ps. split; [now apply in_snoc|exact M3].
  - intros j m M. apply in_snoc. destruct (E _ M) as [M1|[(x & M1 & _)|(x & M1 & M2 & [M3|M3])]]; try discriminate; [eauto|].
    injection M3 as -> ->. destruct (W1 i x M1); [contradiction|assumption].
  - intros j m M. destruct (E _ M) as [M1|[(x & M1 & M2)|(x & M1 & M2 & [M3|M3])]]; try discriminate.
    + destruct (W4 j m M1) as [M2|(ps & M2 & M3)]; [now left|right]. exists ps. split; [now apply in_snoc|exact M3].
    + injection M1 as -> ->. destruct (S x M2) as [_ M3]. destruct (W2 i _ M3) as [M4|(ps & M4 & M5)]; [now left|right].
      exists ps. split; [now apply in_snoc|exact M5].
  - intros j m M. destruct (E _ M) as [M1|[(x & M1 & M2)|(x & M1 & M2 & [M3|M3])]]; try discriminate.
    destruct (W5 j m M1) as [M2 M3]. split; [exact M2|now apply in_snoc].
Qed.

Lemma drops_only rs o : In o (drops rs ++ [ORaise]) -> o = ORaise \/ exists i m, o = ODrop i m.
Proof.
  intros H. apply in_app_or in H. destruct H as [H|[<-|[]]]; [|now left]. right.
  apply in_map_iff in H. destruct H as ([i m] & <- & _). eauto.
Qed.

Ltac none := let M := fresh in intros ? ? M; cbn in M; repeat (destruct M as [M|M]; [discriminate M|]); contradiction.
Ltac none_drops :=
  let M := fresh in intros ? ? M;
  repeat match type of M with In _ (_ :: _) => destruct M as [M|M]; [discriminate M|] end;
  first [contradiction | apply drops_only in M; destruct M as [M|(? & ? & M)]; discriminate M].

Lemma why_step k es s e s' : Why k es s -> step s e = Some s' -> Why k (es ++ [e]) s'.
Proof.
  intros W H. destruct e as [i m|i ps|m|lim|c|b| |i|ord|i|late ord]; cbn [SpinModel.step] in H.
  - crack H. injection H as <-. destruct W as (W1 & W2 & W3 & W4 & W5). unfold Why. cbn [subs cached log].
    assert (S : forall j p, (~ In p (k j) \/ exists ps, In (Publishers j ps) es /\ ~ In p ps) ->
      ~ In p (k j) \/ exists ps, In (Publishers j ps) (es ++ [Arrive i m]) /\ ~ In p ps).
    { intros j p [M|(ps & M & M1)]; [now left|right]. exists ps. split; [now apply in_snoc|exact M1]. }
    split; [|split; [|split; [|split]]].
    + intros j x M. destruct (Nat.eq_dec j i) as [->|N].
      * rewrite upd_eq in M. cbn in M. apply in_app_or in M. destruct M as [M|[<-|[]]]; [|left; now left].
        destruct (W1 i x M); [left; now right|right; now apply in_snoc].
      * rewrite upd_neq in M by exact N. destruct (W1 j x M); [left; now right|right; now apply in_snoc].
    + intros j p M. apply S. apply W2. destruct (Nat.eq_dec j i) as [->|N]; [now rewrite upd_eq in M|now rewrite upd_neq in M by exact N].
    + intros j x M. apply in_snoc. eauto.
    + intros j x M. apply S. now apply W4.
    + intros j x M. destruct (W5 j x M). split; [assumption|now apply in_snoc].
  - crack H. injection H as <-. destruct W as (W1 & W2 & W3 & W4 & W5). unfold Why. cbn [subs cached log].
    assert (S : forall j p, (~ In p (k j) \/ exists ps, In (Publishers j ps) es /\ ~ In p ps) ->
      ~ In p (k j) \/ exists ps0, In (Publishers j ps0) (es ++ [Publishers i ps]) /\ ~ In p ps0).
    { intros j p [M|(ps0 & M & M1)]; [now left|right]. exists ps0. split; [now apply in_snoc|exact M1]. }
    split; [|split; [|split; [|split]]].
    + intros j x M. assert (M1 : In x (queue (subs s j))).
      { destruct (Nat.eq_dec j i) as [->|N]; [now rewrite upd_eq in M|now rewrite upd_neq in M by exact N]. }
      destruct (W1 j x M1); [now left|right; now apply in_snoc].
    + intros j p M. destruct (Nat.eq_dec j i) as [->|N].
      * rewrite upd_eq in M. cbn in M. right. exists ps. split; [apply in_or_app; right; now left|exact M].
      * rewrite upd_neq in M by exact N. apply S. now apply W2.
    + intros j x M. apply in_snoc. eauto.
    + intros j x M. apply S. now apply W4.
    + intros j x M. destruct (W5 j x M). split; [assumption|now apply in_snoc].
  - injection H as <-. destruct W as (W1 & W2 & W3 & W4 & W5). unfold Why. cbn [subs cached log].
    assert (S : forall j p, (~ In p (k j) \/ exists ps, In (Publishers j ps) es /\ ~ In p ps) ->
      ~ In p (k j) \/ exists ps, In (Publishers j ps) (es ++ [Evict m]) /\ ~ In p ps).
    { intros j p [M|(ps & M & M1)]; [now left|right]. exists ps. split; [now apply in_snoc|exact M1]. }
    split; [|split; [|split; [|split]]].
    + intros j x M. destruct (W1 j x M) as [M1|M1]; [|right; now apply in_snoc].
      destruct (dec x m) as [->|N]; [right; apply in_or_app; right; now left|left; now apply In_sdel].
    + intros j p M. apply S. now apply W2.
    + intros j x M. apply in_snoc. eauto.
    + intros j x M. apply S. now apply W4.
    + intros j x M. destruct (W5 j x M). split; [assumption|now apply in_snoc].
  - crack H; injection H as <-; eapply why_same; try eassumption; try reflexivity; none.
  - crack H; injection H as <-.
    + eapply why_same; try eassumption; try reflexivity; none.
    + eapply why_same; try eassumption; try apply go_on_log; try (unfold go_on; destruct l; reflexivity).
      * intros j x M. cbn in M. destruct M as [M|[M|M]]; try discriminate. destruct l; [destruct M as [M|[]]; discriminate|exact M].
      * intros j x M. cbn in M. destruct M as [M|[M|M]]; try discriminate. destruct l; [destruct M as [M|[]]; discriminate|exact M].
      * intros j x M. cbn in M. destruct M as [M|[M|M]]; [|discriminate|destruct l; [destruct M as [M|[]]; discriminate|contradiction]].
        injection M as -> ->. apply orb_false_iff in G. destruct G as [G1 G2]. subst. split; [exact G1|]. apply in_or_app. right. now left.
  - crack H; injection H as <-.
    + eapply why_same; try eassumption; try reflexivity; cbn [app]; none_drops.
    + eapply why_same; try eassumption; try apply go_on_log; try (unfold go_on; destruct rs; reflexivity);
        (destruct rs; none).
  - crack H; injection H as <-; eapply why_same; try eassumption; try reflexivity; none_drops.
  - crack H; injection H as <-; pose proof (why_receive k es (Run i) _ _ _ _ W R) as (W1 & W2 & W3 & W4 & W5); unfold Why, set_now;
      cbn [subs cached log]; rewrite app_nil_r; auto.
  - crack H; injection H as <-; eapply why_same; try eassumption; try reflexivity; none.
  - crack H; injection H as <-; eapply why_same; try eassumption; try reflexivity; none.
  - crack H; injection H as <-; eapply why_same; try eassumption; try reflexivity; none.
Qed.

Lemma why_run k es s : steps (start k) es = Some s -> Why k es s.
Proof.
  revert s. induction es as [|e es IH] using rev_ind; intros s H.
  - injection H as <-. split; [|split; [|split; [|split]]]; try solve [intros i m []]. intros i p M. now left.
  - apply steps_snoc in H. destruct H as (s1 & H1 & H2). exact (why_step _ _ _ _ _ (IH _ H1) H2).
Qed.

(** * Every subscription with a message is served *)
Section Served.
Variable i0 : nat.
Variable m0 : note.
Variable l0 : list obs.
Hypothesis i0_in : i0 < n.

Definition handled (s : state) : Prop :=
  exists l, log s = l0 ++ l /\ (In (OCall i0 m0) l \/ In (OUncopied i0 m0) l).

Definition live (s : state) : Prop :=
  exists q, queue (subs s i0) = m0 :: q /\ In (fst m0) (known (subs s i0)) /\ In m0 (cached s).

Definition Serve (s : state) : Prop :=
  (exists l, log s = l0 ++ l) /\
  (handled s \/ In m0 (held i0 (now s)) \/ exists lim ts, now s = Waiting lim ts /\ ts i0 = Fresh /\ live s).

Lemma handled_step s e s' : step s e = Some s' -> handled s -> handled s'.
Proof.
  intros H (l & L & D). destruct (step_log _ _ _ H) as [l1 L1]. exists (l ++ l1). split; [now rewrite L1, L, app_assoc|].
  destruct D as [D|D]; [left|right]; apply in_or_app; now left.
Qed.

Lemma handled_now s s' l : (exists l, log s = l0 ++ l) -> log s' = log s ++ l ->
  In (OCall i0 m0) l \/ In (OUncopied i0 m0) l -> handled s'.
Proof.
  intros [l1 L] E D. exists (l1 ++ l). split; [now rewrite E, L, app_assoc|].
  destruct D as [D|D]; [left|right]; apply in_or_app; now right.
Qed.

Lemma in_pick j m rs : In m (pick j rs) <-> In (j, m) rs.
Proof.
  unfold pick. rewrite in_flat_map. split.
  - intros ([a b] & H1 & H2). cbn in H2. destruct (a =? j) eqn:E; [|destruct H2]. destruct H2 as [<-|[]].
    apply Nat.eqb_eq in E. now subst.
  - intros H. exists (j, m). split; [exact H|]. cbn. rewrite Nat.eqb_refl. now left.
Qed.

Lemma receive_live s s1 t : receive s i0 = (s1, t) -> live s -> t = Done (Got m0).
Proof.
  intros R (q & Q & K & C). unfold receive in R. rewrite Q in R. cbn [take] in R.
  apply mem_In in K. rewrite K in R. apply mem_In in C. rewrite C in R. now injection R.
Qed.

Lemma live_other s s' : live s -> subs s' i0 = subs s i0 -> cached s' = cached s -> live s'.
Proof. intros (q & H) E1 E2. exists q. now rewrite E1, E2. Qed.

Lemma serve_step s e s' : well (now s) -> Serve s -> step s e = Some s' ->
  e <> Interrupt -> e <> CallbackEnds true -> e <> Evict m0 -> (forall ps, e = Publishers i0 ps -> In (fst m0) ps) -> Serve s'.
Proof.
  intros W [L S] H N1 N2 N3 N4. split.
  { destruct L as [l L]. destruct (step_log _ _ _ H) as [l1 L1]. exists (l ++ l1). now rewrite L1, L, app_assoc. }
  destruct S as [S|[S|(lim0 & ts0 & S1 & S2 & S3)]].
  - left. now apply (handled_step _ _ _ H).
  - destruct e as [i m|i ps|m|lim|c|b| |i|ord|i|late ord]; cbn [SpinModel.step] in H; crack H; try congruence; injection H as <-;
      cbn [set_now now held] in *; try (right; left; exact S); try contradiction.
    + apply in_pick in S. destruct S as [S|S].
      * injection S as -> ->. left. eapply handled_now; [exact L|reflexivity|left; now left].
      * right. left. now apply in_pick.
    + apply in_pick in S. destruct S as [S|S].
      * injection S as -> ->. left. eapply handled_now; [exact L|apply go_on_log|right; now left].
      * right. left. destruct (go_on_inv i0 s l [OUncopied n0 p; ORelease n0 p]) as (_ & G2 & _). rewrite G2. now apply in_pick.
    + right. left. destruct (go_on_inv i0 s rs [OEnd i m; ORelease i m]) as (_ & G2 & _). now rewrite G2.
    + right. left. destruct (Nat.eq_dec i0 i) as [->|N]; [|now rewrite upd_neq].
      apply andb_true_iff in G. destruct G as [_ G]. destruct (ts i); try discriminate; contradiction.
    + right. left. apply in_or_app. apply in_app_or in S. destruct S as [S|S]; [now left|right].
      destruct (Nat.eq_dec i0 i) as [->|N]; [|now rewrite upd_neq].
      apply andb_true_iff in G. destruct G as [G _]. apply andb_true_iff in G. destruct G as [_ G].
      destruct (ts i); try discriminate; contradiction.
    + right. left. apply in_or_app. left. apply andb_true_iff in G. destruct G as [_ G].
      destruct W as [_ W]. now rewrite (pick_lists i0 ts ord G W).
    + right. left. apply in_or_app. apply in_app_or in S. destruct S as [S|S]; [now left|right].
      destruct (Nat.eq_dec i0 i) as [->|N]; [|now rewrite upd_neq].
      apply andb_true_iff in G. destruct G as [_ G]. destruct (ts i); try discriminate; contradiction.
    + exfalso. apply andb_true_iff in G. destruct G as [G _]. apply andb_true_iff in G. destruct G as [_ G].
      destruct W as (_ & W & _). rewrite <- (pick_lists i0 ts ord G W), <- pick_app, R in S. exact S.
    + exfalso. apply andb_true_iff in G. destruct G as [G _]. apply andb_true_iff in G. destruct G as [_ G].
      destruct W as (_ & W & _). rewrite <- (pick_lists i0 ts ord G W), <- pick_app, R in S. exact S.
    + right. left. apply andb_true_iff in G. destruct G as [G _]. apply andb_true_iff in G. destruct G as [_ G].
      destruct W as (_ & W & _). now rewrite <- (pick_lists i0 ts ord G W), <- pick_app, R in S.
  - right. destruct e as [i m|i ps|m|lim|c|b| |i|ord|i|late ord]; cbn [SpinModel.step] in H; rewrite ?S1 in H; crack H; try congruence; injection H as <-;
      cbn [set_now now held].
    + right. exists lim0, ts0. split; [first [exact S1|reflexivity]|]. split; [exact S2|]. destruct S3 as (q & Q & K & C).
      unfold live. cbn [subs cached]. destruct (Nat.eq_dec i0 i) as [->|N].
      * rewrite upd_eq. cbn. exists (q ++ [m]). rewrite Q. split; [reflexivity|]. split; [exact K|now right].
      * rewrite upd_neq by exact N. exists q. split; [exact Q|]. split; [exact K|now right].
    + right. exists lim0, ts0. split; [first [exact S1|reflexivity]|]. split; [exact S2|]. destruct S3 as (q & Q & K & C).
      unfold live. cbn [subs cached]. destruct (Nat.eq_dec i0 i) as [->|N].
      * rewrite upd_eq. cbn. exists q. split; [exact Q|]. split; [now apply N4|exact C].
      * rewrite upd_neq by exact N. exists q. auto.
    + right. exists lim0, ts0. split; [first [exact S1|reflexivity]|]. split; [exact S2|]. destruct S3 as (q & Q & K & C).
      exists q. cbn [subs cached]. split; [exact Q|]. split; [exact K|]. apply In_sdel. split; [congruence|exact C].
    + destruct (Nat.eq_dec i i0) as [->|N0].
      * left. rewrite upd_eq. rewrite (receive_live _ _ _ R S3). now left.
      * assert (N : i0 <> i) by auto. right. exists lim0, (upd ts0 i t). split; [reflexivity|]. rewrite upd_neq by exact N. split; [exact S2|].
        destruct (receive_spec _ _ _ _ R) as ((C & _ & O & _) & _). eapply live_other; [exact S3|cbn; now apply O|exact C].
    + exfalso. apply andb_true_iff in G. destruct G as [G _]. apply andb_true_iff in G. destruct G as [G _].
      rewrite all_spec in G. specialize (G i0 i0_in). rewrite S2 in G. discriminate.
Qed.
End Served.

Lemma serve_steps i0 m0 l0 es : i0 < n -> undisturbed es -> stays i0 m0 es -> forall s s' es0,
  Inv es0 s -> Serve i0 m0 l0 s -> steps s es = Some s' -> Serve i0 m0 l0 s'.
Proof.
  intros Li. induction es as [|e es IH]; intros [U1 U2] [V1 V2] s s' es0 I S H; cbn in H.
  - injection H as <-. exact S.
  - destruct (step s e) as [s1|] eqn:E; [|discriminate]. eapply IH; [| |apply (inv_step _ _ _ _ I E)| |exact H].
    + split; intros K; [apply U1|apply U2]; now right.
    + split; [intros K; apply V1; now right|]. intros ps K. apply V2. now right.
    + eapply serve_step; [exact Li|apply I|exact S|exact E|..].
      * intros ->. apply U1. now left.
      * intros ->. apply U2. now left.
      * intros ->. apply V1. now left.
      * intros ps ->. apply V2. now left.
Qed.

(** * A call of spin_once with something to do, or with a time-out, comes to an end *)
Definition fresh_or_blocked (t : task) : nat := match t with Fresh => 2 | Blocked => 1 | _ => 0 end.
Definition sum (f : nat -> nat) : nat := list_sum (map f (seq 0 n)).

Lemma sum_list_ext (f g : nat -> nat) l : (forall j, In j l -> f j = g j) -> list_sum (map f l) = list_sum (map g l).
Proof. induction l as [|a l IH]; cbn; intros H; [reflexivity|]. f_equal; [apply H; now left|apply IH; auto]. Qed.

Lemma sum_upd ts i t : i < n -> fresh_or_blocked t < fresh_or_blocked (ts i) ->
  sum (fun j => fresh_or_blocked (upd ts i t j)) < sum (fun j => fresh_or_blocked (ts j)).
Proof.
  intros L H. unfold sum. assert (K : In i (seq 0 n)) by (apply in_seq; lia). revert K.
  pose proof (seq_NoDup n 0) as D. induction (seq 0 n) as [|a l IH]; [intros []|]. inversion D as [|? ? D1 D2]; subst.
  intros [->|K]; cbn.
  - rewrite upd_eq. assert (E : list_sum (map (fun j => fresh_or_blocked (upd ts i t j)) l) = list_sum (map (fun j => fresh_or_blocked (ts j)) l)).
    { apply sum_list_ext. intros j J. rewrite upd_neq; [reflexivity|]. intros ->. contradiction. }
    unfold list_sum in E. lia.
  - rewrite upd_neq by (intros ->; contradiction). specialize (IH D2 K). unfold list_sum in IH. lia.
Qed.

Definition finishing (s s' : state) : Prop :=
  exists es, forallb goes_on es = true /\ steps s es = Some s' /\ now s' = Out.

Lemma finishing_step s e s1 s' : step s e = Some s1 -> goes_on e = true -> finishing s1 s' -> finishing s s'.
Proof.
  intros H G (es & E1 & E2 & E3). exists (e :: es). cbn. rewrite G, H. auto.
Qed.

Lemma finish_calls rs : forall s, now s = Calling rs -> rs <> [] -> exists s', finishing s s'.
Proof.
  induction rs as [|[i m] rs IH]; intros s P N; [congruence|].
  set (s1 := set_now s (InCallback i m rs) [OCall i m]).
  assert (S1 : step s (Call true) = Some s1).
  { cbn [SpinModel.step]. rewrite P, orb_true_r. reflexivity. }
  set (s2 := go_on s1 rs [OEnd i m; ORelease i m]).
  assert (S2 : step s1 (CallbackEnds false) = Some s2) by reflexivity.
  destruct rs as [|r rs].
  - exists s2. eapply finishing_step; [exact S1|reflexivity|]. eapply finishing_step; [exact S2|reflexivity|].
    exists []. auto.
  - destruct (IH s2) as [s' F]; [reflexivity|discriminate|]. exists s'.
    eapply finishing_step; [exact S1|reflexivity|]. now eapply finishing_step; [exact S2|reflexivity|].
Qed.

(** Some order of the finished tasks. *)
Definition done_list (ts : nat -> task) : list nat := filter (fun i => is_done (ts i)) (seq 0 n).

Lemma done_list_ok ts : lists n ts (done_list ts) = true.
Proof.
  apply lists_spec. unfold done_list. split; [apply NoDup_filter, seq_NoDup|]. split.
  - intros i H. apply filter_In in H. destruct H as [H1 H2]. apply in_seq in H1. split; [lia|exact H2].
  - intros i L H. apply filter_In. split; [apply in_seq; lia|exact H].
Qed.

Lemma finish_gather k : forall s lim rs ts, sum (fun j => fresh_or_blocked (ts j)) = k ->
  now s = Gathering lim rs ts -> lim = true \/ rs <> [] -> exists s', finishing s s'.
Proof.
  induction k as [k IH] using lt_wf_ind. intros s lim rs ts K P Q.
  destruct (any n (fun i => is_blocked (ts i))) eqn:A.
  - apply any_spec in A. destruct A as (i & L & B).
    set (s1 := set_now s (Gathering lim rs (upd ts i (Done Cancelled))) []).
    assert (S1 : step s (Cancel i) = Some s1).
    { cbn [SpinModel.step]. rewrite P, B. apply Nat.ltb_lt in L. rewrite L. reflexivity. }
    destruct (IH (sum (fun j => fresh_or_blocked (upd ts i (Done Cancelled) j)))) with (s := s1) (lim := lim) (rs := rs) (ts := upd ts i (Done Cancelled))
      as [s' F]; auto.
    + subst k. apply sum_upd; [exact L|]. destruct (ts i); try discriminate. cbn. lia.
    + exists s'. eapply finishing_step; [exact S1|reflexivity|exact F].
  - assert (A1 : all n (fun i => negb (is_blocked (ts i))) = true).
    { apply all_spec. intros i L. apply negb_true_iff. destruct (is_blocked (ts i)) eqn:B; [|reflexivity].
      exfalso. assert (X : any n (fun i => is_blocked (ts i)) = true) by (apply any_spec; eauto). congruence. }
    destruct (rs ++ results ts (done_list ts)) as [|x l] eqn:R.
    + apply app_eq_nil in R. destruct R as [R1 R2]. destruct Q as [->|Q]; [|contradiction].
      set (s1 := set_now s Out [OReturn false]). exists s1. eapply finishing_step with (e := Resume true (done_list ts)) (s1 := s1); [|reflexivity|].
      * cbn [SpinModel.step]. rewrite P, A1, done_list_ok, R1, R2. reflexivity.
      * exists []. auto.
    + set (s1 := set_now s (Calling (x :: l)) []). destruct (finish_calls (x :: l) s1) as [s' F]; [reflexivity|discriminate|].
      exists s'. eapply finishing_step with (e := Resume false (done_list ts)) (s1 := s1); [|reflexivity|exact F].
      cbn [SpinModel.step]. rewrite P, A1, done_list_ok, R. reflexivity.
Qed.

(** The waiting call holds a message, or one is ready for a task that has yet to run. *)
Definition ready (s : state) (ts : nat -> task) : Prop :=
  exists i m, i < n /\ (ts i = Done (Got m) \/ ((ts i = Fresh \/ ts i = Blocked) /\ live i m s)).

Lemma finish_wait k : forall s lim ts, sum (fun j => fresh_or_blocked (ts j)) = k ->
  now s = Waiting lim ts -> well (now s) -> lim = true \/ ready s ts -> exists s', finishing s s'.
Proof.
  induction k as [k IH] using lt_wf_ind. intros s lim ts K P W Q.
  assert (RUN : forall i, i < n -> is_fresh (ts i) || is_blocked (ts i) && negb (eqd (queue (subs s i)) []) = true ->
    (ts i = Blocked -> exists m, live i m s) -> exists s', finishing s s').
  { intros i L B LV. destruct (receive s i) as [s1 t] eqn:R.
    set (s2 := set_now s1 (Waiting lim (upd ts i t)) []).
    assert (S2 : step s (Run i) = Some s2).
    { cbn [SpinModel.step]. rewrite P. pose proof L as L1. apply Nat.ltb_lt in L1. rewrite L1, B, R. reflexivity. }
    destruct (receive_spec _ _ _ _ R) as ((C & _ & O & _) & l & _ & _ & _ & T1 & T2 & _).
    assert (W2 : well (now s2)).
    { rewrite P in W. destruct W as [W1 W2]. cbn. split; intros j.
      - unfold upd. destruct (j =? i); auto.
      - intros J. rewrite upd_neq by lia. auto. }
    destruct (IH (sum (fun j => fresh_or_blocked (upd ts i t j)))) with (s := s2) (lim := lim) (ts := upd ts i t) as [s' F]; auto.
    + subst k. apply sum_upd; [exact L|]. destruct (ts i) eqn:T; try discriminate.
      * destruct t; try congruence; cbn; lia.
      * destruct (LV eq_refl) as (m & LV1). rewrite (receive_live _ _ _ _ _ R LV1). cbn. lia.
    + destruct Q as [Q|(j & m & J & Q)]; [now left|right]. exists j, m. split; [exact J|].
      destruct (Nat.eq_dec j i) as [->|N].
      * rewrite upd_eq. left. destruct Q as [Q|[_ Q]]; [|exact (receive_live _ _ _ _ _ R Q)].
        rewrite Q in B. discriminate.
      * rewrite upd_neq by exact N. destruct Q as [Q|[Q1 Q2]]; [now left|right]. split; [exact Q1|].
        destruct Q2 as (q & Q2). exists q. cbn. rewrite C, O by exact N. exact Q2.
    + exists s'. eapply finishing_step; [exact S2|reflexivity|exact F]. }
  destruct (any n (fun i => is_fresh (ts i))) eqn:A.
  - apply any_spec in A. destruct A as (i & L & B). apply (RUN i L); [now rewrite B|]. intros E. rewrite E in B. discriminate.
  - assert (A1 : all n (fun i => negb (is_fresh (ts i))) = true).
    { apply all_spec. intros i L. apply negb_true_iff. destruct (is_fresh (ts i)) eqn:B; [|reflexivity].
      exfalso. assert (X : any n (fun i => is_fresh (ts i)) = true) by (apply any_spec; eauto). congruence. }
    assert (GO : any n (fun i => is_done (ts i)) || lim = true -> lim = true \/ results ts (done_list ts) <> [] -> exists s', finishing s s').
    { intros D E. set (s1 := set_now s (Gathering lim (results ts (done_list ts)) (collect ts)) []).
      destruct (finish_gather _ s1 lim (results ts (done_list ts)) (collect ts) eq_refl eq_refl E) as [s' F].
      exists s'. eapply finishing_step with (e := WaitOver (done_list ts)) (s1 := s1); [|reflexivity|exact F].
      cbn [SpinModel.step]. rewrite P, A1, D, done_list_ok. reflexivity. }
    destruct Q as [Q|(i & m & L & [Q|[Q1 Q2]])].
    + apply GO; [subst; apply orb_true_r|now left].
    + apply GO.
      * apply orb_true_iff. left. apply any_spec. exists i. now rewrite Q.
      * right. intros E. assert (X : In (i, m) (results ts (done_list ts))).
        { unfold results. apply in_flat_map. exists i. rewrite Q. split; [|now left].
          apply filter_In. rewrite Q. split; [apply in_seq; lia|reflexivity]. }
        rewrite E in X. destruct X.
    + destruct Q1 as [Q1|Q1].
      * rewrite all_spec in A1. specialize (A1 i L). rewrite Q1 in A1. discriminate.
      * apply (RUN i L); [|intros _; eauto]. rewrite Q1. cbn. destruct Q2 as (q & Q2 & _). rewrite Q2.
        apply negb_true_iff. apply eqd_false. discriminate.
Qed.

Lemma called_dealt i l : subsequence (called i l) (dealt i l).
Proof.
  induction l as [|o l IH]; [constructor|]. destruct o; cbn; try exact IH;
    match goal with |- context [if ?c then _ else _] => destruct c end; cbn; try exact IH; now constructor.
Qed.

Lemma subsequence_app {A : Type} (a b c : list A) : subsequence a b -> subsequence a (b ++ c).
Proof. induction 1; cbn; [|now constructor..]. induction c; now constructor. Qed.
End Proofs.
