(* What a subscriber has been told last is what it should be connected to. *)

From Coq Require Import String List Arith Bool Lia Relations.
From Verif Require Import Dict DagModel DagSpec DagProofs JoinModel JoinSpec JoinProofs JoinCtlProofs.
Import ListNotations.

Fixpoint updates (l : list smsg) : list (list nat) :=
  match l with [] => [] | Update ps :: r => ps :: updates r | Complete :: r => updates r end.

Lemma updates_app a b : updates (a ++ b) = updates a ++ updates b.
Proof. induction a as [|[ps|] a IH]; cbn; [reflexivity|now rewrite IH|exact IH]. Qed.

Lemma In_updates ps l : In ps (updates l) <-> In (Update ps) l.
Proof.
  induction l as [|[q|] l IH]; cbn; [tauto| |].
  - rewrite IH. split; (intros [H|H]; [left; congruence|now right]).
  - rewrite IH. split; [now right|]. intros [H|H]; [discriminate|exact H].
Qed.

Lemma last_cons {A} (a d : A) l : last (a :: l) d = last l a.
Proof.
  revert a d. induction l as [|b l IH]; intros a d; [reflexivity|]. change (last (b :: l) d = last (b :: l) a). now rewrite (IH b d), (IH b a).
Qed.

Lemma last_snoc {A} (a d : A) l : last (l ++ [a]) d = a.
Proof. apply last_last. Qed.

(** The publishers the subscriber was told to have, by what was told last. *)
Definition applied (x : sub) : list nat := match s_work x with Some (_, all) => all | None => s_chans x end.
Definition view (x : sub) : list nat := last (updates (s_inbox x)) (applied x).

(** The subscriber has been told of the publisher. *)
Definition mentioned (x : sub) (p : nat) : Prop :=
  In p (s_chans x) \/ (exists todo all, s_work x = Some (todo, all) /\ In p all) \/ exists ps, In (Update ps) (s_inbox x) /\ In p ps.

Definition known (w : world) (p : nat) : Prop :=
  exists y, get p (w_pubs w) = Some y /\ p_sent y = true /\ w_job w <> Some (JAddress p).

Definition work_ok (n : nat) (x : sub) : Prop :=
  (forall todo all, s_work x = Some (todo, all) -> incl todo all /\ length todo <= n /\ forall p, In p all -> In p todo \/ In p (s_chans x)) /\
  (forall ps, In (Update ps) (s_inbox x) -> length ps <= n).

Definition in_todo (w : world) (s : nat) : Prop := exists c todo cur, w_job w = Some (JNotify c todo cur) /\ In s todo.

Record View (w : world) : Prop := {
  v_known : forall s x p, get s (w_subs w) = Some x -> mentioned x p -> known w p;
  v_work : forall s x, get s (w_subs w) = Some x -> work_ok (w_next w) x;
  v_view : forall s x, get s (w_subs w) = Some x -> s_stage x = SOpen -> ~ in_todo w s ->
           forall p y, In p (w_clients w) -> get p (w_pubs w) = Some y -> (In p (view x) <-> connected w (p_topic y) (s_topic x))
}.

Lemma View_start : View start.
Proof. constructor; cbn; discriminate. Qed.

Definition blank (x : sub) : Prop := s_stage x <> SOpen /\ s_inbox x = [] /\ s_work x = None /\ s_chans x = [].

Lemma blank_mentioned x p : blank x -> ~ mentioned x p.
Proof. intros [_ [A [B D]]]. unfold mentioned. rewrite A, B, D. intros [[]|[[? [? [H _]]]|[? [[] _]]]]. discriminate. Qed.

Lemma View_frame w w' : View w -> w_dag w' = w_dag w -> w_next w <= w_next w' ->
  (forall p, known w p -> known w' p) ->
  (forall p y', In p (w_clients w') -> get p (w_pubs w') = Some y' ->
     (In p (w_clients w) /\ exists y, get p (w_pubs w) = Some y /\ p_topic y = p_topic y')) ->
  (forall s, in_todo w s -> in_todo w' s) ->
  (forall s x', get s (w_subs w') = Some x' -> blank x' \/
     exists x, get s (w_subs w) = Some x /\ s_topic x = s_topic x' /\ (s_stage x' = SOpen -> s_stage x = SOpen /\ forall p, In p (view x') <-> In p (view x)) /\
               work_ok (w_next w') x' /\ forall p, mentioned x' p -> mentioned x p) ->
  View w'.
Proof.
  intros V D N K P T S. constructor.
  - intros s x p G M. destruct (S s x G) as [B|[x0 [G0 [_ [_ [_ MM]]]]]]; [destruct (blank_mentioned _ _ B M)|]. exact (K p (v_known _ V s x0 p G0 (MM p M))).
  - intros s x G. destruct (S s x G) as [B|[x0 [_ [_ [_ [W _]]]]]]; [|exact W]. destruct B as [_ [B1 [B2 B3]]]. split; rewrite ?B1, ?B2; [discriminate|intros ps []].
  - intros s x G O NT p y C GP. destruct (S s x G) as [B|[x0 [G0 [TT [OO _]]]]]; [destruct B; contradiction|].
    destruct (OO O) as [O0 VV]. rewrite VV. destruct (P p y C GP) as [C0 [y0 [GP0 TP]]]. rewrite <- TP, <- TT. unfold connected. rewrite D.
    apply (v_view _ V s x0 G0 O0); auto.
Qed.

Lemma work_mono n n' x : work_ok n x -> n <= n' -> work_ok n' x.
Proof.
  intros [A B] L. split.
  - intros todo all E. destruct (A _ _ E) as [A1 [A2 A3]]. repeat split; auto. lia.
  - intros ps H. specialize (B ps H). lia.
Qed.

Lemma sub_unchanged w w' s x : View w -> w_next w <= w_next w' -> get s (w_subs w) = Some x ->
  exists x0, get s (w_subs w) = Some x0 /\ s_topic x0 = s_topic x /\ (s_stage x = SOpen -> s_stage x0 = SOpen /\ forall p, In p (view x) <-> In p (view x0)) /\
    work_ok (w_next w') x /\ forall p, mentioned x p -> mentioned x0 p.
Proof.
  intros V N G. exists x. split; [exact G|]. split; [reflexivity|]. split; [intros H; split; [exact H|tauto]|]. split; [|auto].
  exact (work_mono _ _ _ (v_work _ V s x G) N).
Qed.

Lemma in_todo_job w w' : w_job w' = w_job w -> forall s, in_todo w s -> in_todo w' s.
Proof. intros E s [c [todo [cur [H I]]]]. exists c, todo, cur. rewrite E. auto. Qed.

(* One publisher changes its stage. *)
Lemma View_put_pub w q y y' : View w -> get q (w_pubs w) = Some y -> p_topic y' = p_topic y -> (p_sent y = true -> p_sent y' = true) -> View (put_pub q y' w).
Proof.
  intros V G T S. apply (View_frame w); auto.
  - intros p [z [A [B D]]]. unfold known. cbn. rewrite get_put. destruct (dec p q) as [->|]; [|eauto].
    exists y'. split; [reflexivity|]. split; [|exact D]. apply S. congruence.
  - intros p z C GP. split; [exact C|]. cbn in GP. rewrite get_put in GP. destruct (dec p q) as [->|]; [|eauto]. injection GP as <-. eauto.
  - intros s x GS. right. now apply sub_unchanged.
Qed.

(* One subscriber changes. *)
Lemma View_put_sub w q y y' : View w -> get q (w_subs w) = Some y ->
  s_topic y' = s_topic y -> (s_stage y' = SOpen -> s_stage y = SOpen /\ forall p, In p (view y') <-> In p (view y)) ->
  work_ok (w_next w) y' -> (forall p, mentioned y' p -> mentioned y p) -> View (put_sub q y' w).
Proof.
  intros V G T O W M. apply (View_frame w); auto.
  - intros p y0 C GP. eauto.
  - intros s x GS. cbn in GS. rewrite get_put in GS. right. destruct (dec s q) as [->|]; [injection GS as <-; exists y; auto|now apply sub_unchanged].
Qed.

Lemma View_ask w r : View w -> View (ask r w).
Proof.
  intros V. apply (View_frame w); auto; [cbn; lia| |].
  - intros p y C GP. eauto.
  - intros s x G. right. apply (sub_unchanged w (ask r w)); auto. cbn. lia.
Qed.

Lemma View_set_sync w s : View w -> View (set_sync s w).
Proof.
  intros V. destruct (set_sync_fields s w) as [F1 [F2 [F3 [F4 [F5 [F6 F7]]]]]]. apply (View_frame w); auto; [lia| | | |].
  - intros p [y [A [B D]]]. exists y. rewrite F1. split; [exact A|]. split; [exact B|]. rewrite set_sync_addr. exact D.
  - rewrite F1, F5. intros p y C GP. eauto.
  - intros z [c [todo [cur [E I]]]]. destruct (set_sync_forward s w c todo cur E) as [cur' [E' _]]. exists c, todo, cur'. auto.
  - rewrite F2. intros z x G. right. apply (sub_unchanged w (set_sync s w)); auto. lia.
Qed.

Lemma View_fewer w i : View w -> View (set_clients (sdel i (w_clients w)) w).
Proof.
  intros V. apply (View_frame w); auto.
  - intros p y C GP. cbn in C. apply In_sdel in C as [_ C]. eauto.
  - intros s x G. right. now apply (sub_unchanged w).
Qed.

(** If no changed target leads to [x] any more, the topics that lead to [x] are the same. *)
Lemma leads_stable (d d' : dag) f t x :
  (forall a b, (a, b) <> (f, t) -> (has_edge d' a b <-> has_edge d a b)) ->
  ~ (t = x \/ path d' t x) ->
  forall y, (y = x \/ path d y x) <-> (y = x \/ path d' y x).
Proof.
  intros T N.
  assert (A : forall y z, has_edge d y z -> z = x \/ path d' z x -> y = x \/ path d' y x).
  { intros y z E R. destruct (dec (y, z) (f, t)) as [X|X]; [injection X as -> ->; contradiction|]. apply T in E; [|exact X].
    right. destruct R as [->|R]; [now apply t_step|]. eapply t_trans; [apply t_step; exact E|exact R]. }
  assert (B : forall y z, has_edge d' y z -> z = x \/ path d' z x -> z = x \/ path d z x -> y = x \/ path d y x).
  { intros y z E R' R. destruct (dec (y, z) (f, t)) as [X|X]; [injection X as -> ->; contradiction|]. apply T in E; [|exact X].
    right. destruct R as [->|R]; [now apply t_step|]. eapply t_trans; [apply t_step; exact E|exact R]. }
  intros y. split.
  - intros [->|P]; [now left|]. unfold path in P. apply clos_trans_t1n in P.
    induction P as [y z E|y z w E P IH].
    + eapply A; [exact E|now left].
    + eapply A; [exact E|]. apply IH; assumption.
  - intros [->|P]; [now left|]. unfold path in P. apply clos_trans_t1n in P.
    enough ((y = x \/ path d y x) /\ (y = x \/ path d' y x)) by tauto.
    induction P as [y z E|y z w E P IH].
    + split; [eapply B; [exact E|now left|now left]|right; now apply t_step].
    + destruct (IH N A B) as [R R']. split; [eapply B; eauto|]. right.
      destruct R' as [->|R']; [now apply t_step|]. eapply t_trans; [apply t_step; exact E|exact R'].
Qed.

Lemma remove_edge_others d f t o d' r : DInv d -> remove_edge f t o d = (d', r) ->
  forall a b, (a, b) <> (f, t) -> (has_edge d' a b <-> has_edge d a b).
Proof.
  intros I E0 a b N. pose proof (DInv_remove d f t o I) as I'. rewrite E0 in I'; cbn in I'.
  rewrite (has_edge_owner d' _ _ I'), (has_edge_owner d _ _ I). split; intros [o' J]; exists o'.
  - pose proof (proj1 (remove_edge_owner d f t o (a, b) o' I)) as X. rewrite E0 in X. cbn in X. now apply X.
  - pose proof (proj2 (remove_edge_owner d f t o (a, b) o' I)) as X. rewrite E0 in X. cbn in X. apply X. split; [exact J|]. intros [E _]. congruence.
Qed.

Lemma same_edges_leads (d d' : dag) : (forall a b, has_edge d' a b <-> has_edge d a b) -> forall y x, (y = x \/ path d y x) <-> (y = x \/ path d' y x).
Proof.
  intros T y x. assert (P : path d y x <-> path d' y x); [|tauto]. apply clos_trans_iff. intros a b. symmetry. apply T.
Qed.

(* A call of connect(), disconnect() or dag() is taken. *)
Lemma View_taken w i d a j t : View w -> w_job w = None ->
  (forall y x, ~ (exists z, j = Some (JNotify ForEdge z None) /\ forall s q, In s (w_clients w) -> get s (w_subs w) = Some q -> s_topic q = x -> In s z) ->
     ((y = x \/ path (w_dag w) y x) <-> (y = x \/ path d y x))) ->
  j = None \/ (exists z, j = Some (JNotify ForEdge z None)) ->
  (forall s x, get s (w_subs w) = Some x -> s_stage x = SOpen -> In s (w_clients w)) ->
  (forall z, j = Some (JNotify ForEdge z None) -> forall s q q' s', In s (w_clients w) -> get s (w_subs w) = Some q -> get s' (w_subs w) = Some q' ->
     In s' z -> s_topic q = s_topic q' -> In s z) ->
  View (set_job j (answer_call i a (set_dag d (set_waiting t w)))).
Proof.
  intros V E L J CL SAME. constructor.
  - intros s x p G M. destruct (v_known _ V s x p G M) as [y [A [B _]]]. exists y. split; [exact A|]. split; [exact B|]. cbn. destruct J as [->|[z ->]]; discriminate.
  - intros s x G. exact (v_work _ V s x G).
  - intros s x G O NT p y C GP. cbn in C, GP. unfold connected. cbn. rewrite <- L; [|].
    + apply (v_view _ V s x G O); auto. intros [c [td [cu [X _]]]]. congruence.
    + intros [z [JZ Z]]. apply NT. exists ForEdge, z, None. split; [exact JZ|]. exact (Z s x (CL s x G O) G eq_refl).
Qed.

Lemma open_client w s x : Ctl w -> get s (w_subs w) = Some x -> s_stage x = SOpen -> In s (w_clients w).
Proof. intros C G O. destruct (c_sub _ C s x G) as [_ [H _]]. rewrite O in H. tauto. Qed.

Lemma View_take w i w' : Ctl w -> View w -> step w (Take i) = Some w' -> View w'.
Proof.
  intros C V H. cbn [step] in H. destruct (w_job w) eqn:E; [discriminate|]. destruct (get i (w_waiting w)) as [r|] eqn:G; [|discriminate].
  pose proof (c_dag _ C) as D.
  assert (CL : forall s x, get s (w_subs w) = Some x -> s_stage x = SOpen -> In s (w_clients w)) by (intros s x; now apply open_client).
  unfold execute in H. destruct r as [| |f t|f t|].
  - injection H as <-. destruct (c_wait _ C i _ G) as [_ [y GY]]. destruct (c_pub _ C i y GY) as [_ [_ [P _]]].
    assert (SN : p_sent y = false) by (destruct (p_stage y); intuition congruence).
    apply (View_frame w); auto.
    + intros p [z [A [B _]]]. exists z. split; [exact A|]. split; [exact B|]. cbn. intros X. injection X as ->. congruence.
    + intros p z K GP. eauto.
    + intros s [c [td [cu [X _]]]]. congruence.
    + intros s x GS. right. now apply (sub_unchanged w).
  - destruct (get i (w_subs (set_waiting (del i (w_waiting w)) w))) as [x|] eqn:GX; [|discriminate]. cbn in GX. injection H as <-.
    constructor.
    + intros s y p GS M. cbn in GS. rewrite get_put in GS.
      assert (K : known w p).
      { destruct (dec s i) as [->|]; [|exact (v_known _ V s y p GS M)]. injection GS as <-. exact (v_known _ V i x p GX M). }
      destruct K as [z [A [B _]]]. exists z. split; [exact A|]. split; [exact B|]. discriminate.
    + intros s y GS. cbn in GS. rewrite get_put in GS. destruct (dec s i) as [->|]; [injection GS as <-; exact (v_work _ V i x GX)|exact (v_work _ V s y GS)].
    + intros s y GS O NT p z K GP. cbn in GS, GP, K. rewrite get_put in GS. destruct (dec s i) as [->|N].
      * exfalso. apply NT. exists (ForSub i), [i], None. split; [reflexivity|now left].
      * apply in_app_or in K as [K|[K|[]]].
        { apply (v_view _ V s y GS O); auto. intros [c [td [cu [X _]]]]. congruence. }
        subst p. destruct (c_pub _ C i z GP) as [_ [X _]]. congruence.
  - change (w_dag (set_waiting (del i (w_waiting w)) w)) with (w_dag w) in H. destruct (add_edge f t None (w_dag w)) as [d r] eqn:A.
    destruct (add_edge_changed _ _ _ _ _ _ D A) as [AC AO]. destruct r.
    + injection H as <-. set (dst := downstream_subs _ _).
      assert (I1 : DInv d) by exact (DInv_added _ _ _ _ _ D A).
      assert (SP : forall s, In s dst <-> In s (w_clients w) /\ exists x, get s (w_subs w) = Some x /\ (t = s_topic x \/ path d t (s_topic x)))
        by (intros s; exact (downstream_subs_spec t (answer_call i AComplete (set_dag d (set_waiting (del i (w_waiting w)) w))) s I1)).
      apply (View_taken w); auto.
      * intros y x N. apply leads_stable with (f := f) (t := t); [exact AO|]. intros R. apply N. exists dst. split; [reflexivity|].
        intros s q Cs Gs Q. apply SP. split; [exact Cs|]. exists q. subst x. auto.
      * right. eauto.
      * intros z Z s q q' s' Cs Gs Gs' I' Q. injection Z as <-. apply SP in I' as [_ [q2 [X Y]]]. apply SP. split; [exact Cs|]. exists q. split; [exact Gs|].
        rewrite Q. congruence.
    + injection H as <-. rewrite <- set_job_same; [|exact E]. apply (View_taken w); auto; [|discriminate].
      intros y x _. apply same_edges_leads. intros a b. destruct (add_edge_cases _ f t None D) as [[K _]|[[os [_ [_ K]]]|[[os [_ [_ K]]]|[_ [_ K]]]]]; rewrite A in K; try discriminate; injection K as K; subst d; reflexivity.
    + injection H as <-. rewrite <- set_job_same; [|exact E]. apply (View_taken w); auto; [|discriminate].
      intros y x _. rewrite (rejected_same _ _ _ _ _ D A). tauto.
  - change (w_dag (set_waiting (del i (w_waiting w)) w)) with (w_dag w) in H. destruct (remove_edge f t None (w_dag w)) as [d r] eqn:A.
    pose proof (remove_edge_others _ _ _ _ _ _ D A) as AO. destruct r.
    + injection H as <-. set (dst := downstream_subs _ _).
      assert (I1 : DInv d) by exact (DInv_removed _ _ _ _ _ D A).
      assert (SP : forall s, In s dst <-> In s (w_clients w) /\ exists x, get s (w_subs w) = Some x /\ (t = s_topic x \/ path d t (s_topic x)))
        by (intros s; exact (downstream_subs_spec t (answer_call i AComplete (set_dag d (set_waiting (del i (w_waiting w)) w))) s I1)).
      apply (View_taken w); auto.
      * intros y x N. apply leads_stable with (f := f) (t := t); [exact AO|]. intros R. apply N. exists dst. split; [reflexivity|].
        intros s q Cs Gs Q. apply SP. split; [exact Cs|]. exists q. subst x. auto.
      * right. eauto.
      * intros z Z s q q' s' Cs Gs Gs' I' Q. injection Z as <-. apply SP in I' as [_ [q2 [X Y]]]. apply SP. split; [exact Cs|]. exists q. split; [exact Gs|].
        rewrite Q. congruence.
    + injection H as <-. rewrite <- set_job_same; [|exact E]. apply (View_taken w); auto; [|discriminate].
      intros y x _. apply same_edges_leads. intros a b. destruct (remove_edge_cases _ f t None D) as [[_ K]|[[os [_ [_ [_ K]]]]|[os [_ [_ [_ K]]]]]]; rewrite A in K; try discriminate; injection K as K; subst d; reflexivity.
  - injection H as <-. rewrite <- set_job_same; [|exact E].
    replace (set_waiting (del i (w_waiting w)) w) with (set_dag (w_dag w) (set_waiting (del i (w_waiting w)) w)) by (destruct w; reflexivity).
    apply (View_taken w); auto; [tauto|discriminate].
Qed.

Lemma View_register w p w' : Ctl w -> View w -> step w (Register p) = Some w' -> View w'.
Proof.
  intros C V H. cbn [step] in H. destruct (get p (w_pubs w)) as [[t g b]|] eqn:G; [|discriminate]. destruct b; [|discriminate].
  destruct (w_job w) as [[p'|c todo cur]|] eqn:E; try discriminate. destruct (dec p p') as [<-|]; [|discriminate]. injection H as <-.
  set (dst := downstream_subs _ _).
  assert (SP : forall s, In s dst <-> In s (w_clients w ++ [p]) /\ exists x, get s (w_subs w) = Some x /\ connected w t (s_topic x))
    by (intros s; exact (downstream_subs_spec t (set_clients (w_clients w ++ [p]) w) s (c_dag _ C))).
  constructor.
  - intros s x q GS M. destruct (v_known _ V s x q GS M) as [y [A [B _]]]. exists y. split; [exact A|]. split; [exact B|]. discriminate.
  - intros s x GS. exact (v_work _ V s x GS).
  - intros s x GS O NT q y K GP. cbn in GS, GP, K. apply in_app_or in K as [K|[K|[]]].
    + apply (v_view _ V s x GS O); auto. intros [c [td [cu [X _]]]]. congruence.
    + subst q. rewrite G in GP. injection GP as <-. cbn [p_topic]. split.
      * intros M. exfalso. assert (MM : mentioned x p).
        { unfold view in M. destruct (updates (s_inbox x)) as [|u us] eqn:U.
          - cbn in M. unfold applied in M. destruct (s_work x) as [[td al]|] eqn:W; [right; left; eauto|now left].
          - right; right. exists (last (u :: us) (applied x)). split; [|exact M]. apply In_updates. rewrite U.
            destruct (exists_last (l := u :: us)) as [l' [z Z]]; [discriminate|]. rewrite Z, last_snoc. apply in_or_app. right. now left. }
        destruct (v_known _ V s x p GS MM) as [z [_ [_ X]]]. contradiction.
      * intros K. exfalso. apply NT. exists (ForPub p), dst, None. split; [reflexivity|]. apply SP. split; [apply in_or_app; left; now apply (open_client w s x)|]. eauto.
Qed.

Lemma filter_length_le {A} (f : A -> bool) l : length (filter f l) <= length l.
Proof. induction l as [|a l IH]; cbn; [lia|]. destruct (f a); cbn; lia. Qed.

Lemma sdel_length (p : nat) l : length (sdel p l) <= length l.
Proof. apply filter_length_le. Qed.

Lemma View_step w l w' : Ctl w -> View w -> step w l = Some w' -> View w'.
Proof.
  intros C V H. destruct l as [t|t|f t|f t| |p|s|p m|p|i|p|p| |s| | |p|s|s p|s p|s|p|s].
  - cbn in H. injection H as <-. apply View_ask. apply (View_frame w); auto.
    + intros p [y [A B]]. exists y. split; [|exact B]. cbn. rewrite get_put_neq; [exact A|]. intros ->. rewrite (pub_new w C) in A. discriminate.
    + intros p y K GP. cbn in GP. rewrite get_put in GP. destruct (dec p (w_next w)) as [->|]; [|eauto]. destruct (client_new w C K).
    + intros s x G. right. now apply sub_unchanged.
  - cbn in H. injection H as <-. apply View_ask. apply (View_frame w); auto.
    + intros p y K GP. eauto.
    + intros s x G. cbn in G. rewrite get_put in G. destruct (dec s (w_next w)); [left; injection G as <-; repeat split; discriminate|]. right. now apply sub_unchanged.
  - cbn in H. injection H as <-. now apply View_ask.
  - cbn in H. injection H as <-. now apply View_ask.
  - cbn in H. injection H as <-. now apply View_ask.
  - cbn [step] in H. destruct (get p (w_pubs w)) as [x|] eqn:G; [|discriminate]. injection H as <-. eapply View_put_pub; eauto.
  - cbn [step] in H. destruct (get s (w_subs w)) as [x|] eqn:G; [|discriminate]. injection H as <-. eapply View_put_sub; eauto; cbn; try discriminate.
    + split; cbn; [discriminate|]. exact (proj2 (v_work _ V s x G)).
    + unfold mentioned. cbn. intros p [[]|[[? [? [? _]]]|M]]; [discriminate|now right; right].
  - cbn [step] in H. destruct (get p (w_pubs w)) as [[t g b]|]; [|discriminate]. destruct g; try discriminate. injection H as <-. apply (View_frame w); auto.
    + intros q y K GP. eauto.
    + intros s x G. cbn in G. rewrite get_map in G. destruct (get s (w_subs w)) as [y|] eqn:GY; [|discriminate]. injection G as <-. right. exists y. split; [reflexivity|].
      pose proof (v_work _ V s y GY) as W. unfold deliver. destruct (mem p (s_chans y)); cbn; (split; [reflexivity|]; split; [intros O; split; [exact O|tauto]|]; split; [exact W|auto]).
  - cbn [step] in H. destruct (get p (w_pubs w)) as [[t g b]|] eqn:G; [|discriminate]. destruct g; try discriminate.
    destruct (w_job w) as [[p'|]|] eqn:E; try discriminate. destruct (dec p p'); [|discriminate]. injection H as <-. eapply View_put_pub; eauto.
  - exact (View_take w i w' C V H).
  - cbn [step] in H. destruct (get p (w_pubs w)) as [[t g b]|] eqn:G; [|discriminate]. destruct g; try discriminate.
    destruct (w_job w) as [[p'|]|] eqn:E; try discriminate. destruct (dec p p'); [|discriminate]. injection H as <-. eapply View_put_pub; eauto.
  - exact (View_register w p w' C V H).
  - cbn [step] in H. destruct (w_job w) as [[|c todo cur]|] eqn:E; try discriminate. destruct todo as [|s todo]; [discriminate|]. destruct cur; [discriminate|].
    destruct (get s (w_subs w)) as [x|] eqn:G; [|discriminate]. injection H as <-.
    set (ups := upstream_pubs _ _). set (y := mkSub _ _ _ _ _ _ _ _).
    assert (UP : forall p, In p ups <-> In p (w_clients w) /\ exists z, get p (w_pubs w) = Some z /\ connected w (p_topic z) (s_topic x))
      by (intros p; exact (upstream_pubs_spec (s_topic x) w p (c_dag _ C))).
    assert (LU : length ups <= w_next w).
    { apply below_length; [apply NoDup_filter, (c_nodup _ C)|]. intros i I. apply UP in I as [I _]. exact (proj1 (c_client _ C i I)). }
    assert (KN : forall p, In p ups -> known w p).
    { intros p I. apply UP in I as [I [z [GZ _]]]. exists z. split; [exact GZ|]. split; [|rewrite E; discriminate].
      destruct (c_pub _ C p z GZ) as [_ [_ [P _]]]. destruct (p_sent z) eqn:S; [reflexivity|]. destruct (p_stage z); intuition congruence. }
    assert (KS : forall p, known w p -> known (set_job (Some (JNotify c todo (Some s))) (put_sub s y w)) p).
    { intros p [z [A [B _]]]. exists z. split; [exact A|]. split; [exact B|]. discriminate. }
    assert (MY : forall p, mentioned y p -> mentioned x p \/ In p ups).
    { unfold mentioned, y. cbn. intros p [M|[M|[ps [M1 M2]]]]; [auto|auto|]. apply in_app_or in M1 as [M1|[M1|[]]]; [left; right; right; eauto|]. injection M1 as <-. now right. }
    constructor.
    + intros q z p GQ M. apply KS. cbn in GQ. rewrite get_put in GQ. destruct (dec q s) as [->|]; [|exact (v_known _ V q z p GQ M)].
      injection GQ as <-. destruct (MY p M) as [MM|MM]; [exact (v_known _ V s x p G MM)|auto].
    + intros q z GQ. cbn in GQ. rewrite get_put in GQ. destruct (dec q s) as [->|]; [|exact (v_work _ V q z GQ)]. injection GQ as <-.
      destruct (v_work _ V s x G) as [W1 W2]. split; [exact W1|]. unfold y; cbn. intros ps I. apply in_app_or in I as [I|[I|[]]]; [auto|]. injection I as <-. exact LU.
    + intros q z GQ O NT p u K GP. cbn in GQ, K, GP. rewrite get_put in GQ. destruct (dec q s) as [->|N].
      * injection GQ as <-. unfold view, y. cbn. rewrite updates_app. cbn. rewrite last_snoc, UP. split.
        { intros [_ [z [GZ Z]]]. rewrite GP in GZ. injection GZ as <-. exact Z. }
        { intros Z. split; [exact K|]. eauto. }
      * apply (v_view _ V q z GQ O); auto. intros [c' [td [cu [X I]]]]. rewrite E in X. injection X as <- <- <-. destruct I as [->|I]; [congruence|].
        apply NT. exists c, todo, (Some s). auto.
  - cbn [step] in H. destruct (get s (w_subs w)) as [[t g r ib k c [|n] got]|] eqn:G; try discriminate. destruct (mem s (w_clients w)); [|discriminate]. injection H as <-.
    apply View_set_sync. eapply View_put_sub; eauto; cbn; [intros O; split; [exact O|tauto]|]. exact (v_work _ V s _ G).
  - cbn [step] in H. destruct (w_job w) as [[|c todo [s|]]|] eqn:E; try discriminate. injection H as <-. apply (View_frame w); auto.
    + intros p [y [A [B D]]]. exists y. split; [exact A|]. split; [exact B|]. discriminate.
    + intros p y K GP. eauto.
    + intros q [c' [td [cu [X I]]]]. rewrite E in X. injection X as <- <- <-. exists c, todo, None. auto.
    + intros q x G. right. now apply (sub_unchanged w).
  - cbn [step] in H. destruct (w_job w) as [[|c todo cur]|] eqn:E; try discriminate. destruct todo; [|discriminate]. destruct cur; [discriminate|].
    assert (V1 : View (set_job None w)).
    { apply (View_frame w); auto.
      - intros p [y [A [B D]]]. exists y. split; [exact A|]. split; [exact B|]. discriminate.
      - intros p y K GP. eauto.
      - intros q [c' [td [cu [X I]]]]. rewrite E in X. injection X as <- <- <-. destruct I.
      - intros q x G. right. now apply (sub_unchanged w). }
    destruct c as [p|s|].
    + destruct (get p (w_pubs w)) as [[t g b]|] eqn:G; [|injection H as <-; exact V1]. destruct g; injection H as <-; try exact V1.
      eapply View_put_pub; [exact V1|exact G|reflexivity|auto].
    + destruct (get s (w_subs w)) as [x|] eqn:G; [|injection H as <-; exact V1]. injection H as <-.
      eapply View_put_sub; [exact V1|exact G|reflexivity| | |].
      * cbn. intros O. split; [exact O|]. intros p. unfold view. cbn. rewrite updates_app. cbn. rewrite app_nil_r. tauto.
      * destruct (v_work _ V s x G) as [W1 W2]. split; [exact W1|]. cbn. intros ps I. apply in_app_or in I as [I|[I|[]]]; [auto|discriminate].
      * unfold mentioned. cbn. intros p [M|[M|[ps [M1 M2]]]]; [auto|auto|]. apply in_app_or in M1 as [M1|[M1|[]]]; [eauto|discriminate].
    + injection H as <-. exact V1.
  - cbn [step] in H. destruct (get p (w_pubs w)) as [[t g b]|] eqn:G; [|discriminate]. destruct g; try discriminate. injection H as <-. eapply View_put_pub; eauto.
  - cbn [step] in H. destruct (get s (w_subs w)) as [[t g r ib k c n got]|] eqn:G; [|discriminate]. destruct g; try discriminate. destruct ib as [|m ib]; [discriminate|].
    destruct k; [discriminate|]. injection H as <-. destruct (v_work _ V s _ G) as [W1 W2]. cbn in W1, W2.
    destruct m as [ps|]; (eapply View_put_sub; [exact V|exact G|reflexivity| | |]).
    + cbn. intros _. split; [reflexivity|]. intros p. unfold view, applied. cbn [s_inbox s_work s_chans updates]. change (In p (last (updates ib) ps) <-> In p (last (ps :: updates ib) c)). rewrite (last_cons ps c). tauto.
    + split; cbn [s_work s_inbox s_chans]; [|intros q I; apply W2; now right]. intros todo all X. injection X as <- <-.
      split; [intros p I; apply filter_In in I; tauto|]. split; [etransitivity; [apply filter_length_le|]; apply W2; now left|].
      intros p I. destruct (mem p c) eqn:M; [right; now apply mem_In|]. left. apply filter_In. rewrite M. auto.
    + unfold mentioned. cbn. intros p [M|[[td [al [M1 M2]]]|[qs [M1 M2]]]]; [auto| |].
      * injection M1 as <- <-. right; right. eauto.
      * right; right. eauto.
    + cbn. intros _. split; [reflexivity|]. intros p. tauto.
    + split; cbn [s_work s_inbox s_chans]; [discriminate|]. intros q I. apply W2. now right.
    + unfold mentioned. cbn. intros p [M|[[td [al [M1 M2]]]|[qs [M1 M2]]]]; [auto|discriminate|]. right; right. eauto.
  - cbn [step] in H. destruct (get s (w_subs w)) as [[t g r ib k c n got]|] eqn:G; [|discriminate]. destruct g; try discriminate. destruct k as [[td al]|]; [|discriminate].
    destruct (get p (w_pubs w)) as [pz|]; [|discriminate]. destruct (mem p td && reachable (p_stage pz)) eqn:B; [|discriminate]. injection H as <-.
    apply andb_true_iff in B as [B _]. apply mem_In in B.
    destruct (v_work _ V s _ G) as [W1 W2]. cbn in W1, W2. destruct (W1 td al eq_refl) as [X1 [X2 X3]].
    eapply View_put_sub; [exact V|exact G|reflexivity| | |].
    + cbn. intros _. split; [reflexivity|]. intros q. tauto.
    + split; cbn [s_work s_inbox s_chans]; [|exact W2]. intros todo all X. injection X as <- <-.
      split; [intros q I; apply In_sdel in I as [_ I]; auto|]. split; [pose proof (sdel_length p td); lia|].
      intros q I. destruct (dec q p) as [->|N]; [right; apply In_sadd; now left|]. destruct (X3 q I) as [Y|Y]; [left; now apply In_sdel|right; apply In_sadd; now right].
    + unfold mentioned. cbn. intros q [M|[[td' [al' [M1 M2]]]|M]]; [|injection M1 as <- <-; right; left; eauto|auto].
      apply In_sadd in M as [->|M]; [|auto]. right; left. exists td, al. auto.
  - cbn [step] in H. destruct (get s (w_subs w)) as [[t g r ib k c n got]|] eqn:G; [|discriminate]. destruct g; try discriminate. destruct k as [[td al]|]; [|discriminate].
    destruct (get p (w_pubs w)); [|discriminate]. destruct (_ && _); [|discriminate]. injection H as <-. destruct (v_work _ V s _ G) as [W1 W2].
    eapply View_put_sub; [exact V|exact G|reflexivity|discriminate| |].
    + split; [discriminate|exact W2].
    + unfold mentioned. cbn. intros q [[]|[[td' [al' [M1 M2]]]|M]]; [discriminate|auto].
  - cbn [step] in H. destruct (get s (w_subs w)) as [[t g r ib k c n got]|] eqn:G; [|discriminate]. destruct g; try discriminate. destruct k as [[[|] al]|]; try discriminate.
    injection H as <-. destruct (v_work _ V s _ G) as [W1 W2]. cbn in W1, W2. destruct (W1 [] al eq_refl) as [X1 [X2 X3]].
    eapply View_put_sub; [exact V|exact G|reflexivity| | |].
    + cbn. intros _. split; [reflexivity|]. intros q. unfold view, applied. cbn [s_inbox s_work s_chans].
      destruct (updates ib) as [|u us] eqn:U; [|rewrite !last_cons; tauto]. cbn. rewrite filter_In, mem_In. split; [tauto|].
      intros I. split; [|exact I]. destruct (X3 q I) as [[]|Y]. exact Y.
    + split; [discriminate|exact W2].
    + unfold mentioned. cbn. intros q [M|[[td' [al' [M1 M2]]]|M]]; [|discriminate|auto]. apply filter_In in M as [M _]. auto.
  - cbn [step] in H. destruct (get p (w_pubs w)) as [[t g b]|] eqn:G; [|discriminate]. destruct g; try discriminate. destruct (mem p (w_clients w)).
    + injection H as <-. now apply View_fewer.
    + destruct (w_job w) as [[p'|]|] eqn:E; try discriminate. destruct (dec p p'); [|discriminate]. destruct b; [discriminate|]. injection H as <-.
      apply (View_frame w); auto.
      * intros q [y [A [B D]]]. exists y. split; [exact A|]. split; [exact B|]. discriminate.
      * intros q y K GP. eauto.
      * intros q [c' [td [cu [X I]]]]. congruence.
      * intros q x GS. right. now apply (sub_unchanged w).
  - cbn [step] in H. destruct (get s (w_subs w)) as [x|] eqn:G; [|discriminate]. destruct (_ && _); [|discriminate]. injection H as <-.
    now apply View_set_sync, View_fewer.
Qed.

Record Good (w : world) : Prop := { g_ctl : Ctl w; g_view : View w }.

Lemma Good_start : Good start.
Proof. exact (Build_Good _ Ctl_start View_start). Qed.

Lemma Good_step w l w' : Good w -> step w l = Some w' -> Good w'.
Proof. intros [C V] H. exact (Build_Good _ (Ctl_step _ _ _ C H) (View_step _ _ _ C V H)). Qed.

Lemma Good_steps ls : forall w w', Good w -> steps w ls = Some w' -> Good w'.
Proof.
  induction ls as [|l ls IH]; intros w w' G H; cbn in H; [injection H as <-; exact G|].
  destruct (step w l) as [w1|] eqn:E; [|discriminate]. eapply IH; [|exact H]. exact (Good_step _ _ _ G E).
Qed.
