(* Without a time-out, an update is applied before the server goes on. *)

From Coq Require Import String List Arith Bool Lia Relations.
From Verif Require Import Dict DagModel DagSpec DagProofs JoinModel JoinSpec JoinProofs JoinCtlProofs JoinViewProofs.
Import ListNotations.

Definition awaited (w : world) (s : nat) : Prop := exists c todo, w_job w = Some (JNotify c todo (Some s)).
Definition pending (x : sub) : nat := length (updates (s_inbox x)) + (match s_work x with Some _ => 1 | None => 0 end) + s_acks x.

Record Sync (w : world) : Prop := {
  y_count : forall s x, get s (w_subs w) = Some x -> s_stage x = SOpen ->
            pending x = 0 /\ ~ awaited w s \/ pending x = 1 /\ awaited w s;
  y_asked : forall s x, get s (w_subs w) = Some x -> s_stage x = SAsked -> s_ready x = false;
  y_sub : forall s x todo cur, w_job w = Some (JNotify (ForSub s) todo cur) -> get s (w_subs w) = Some x -> s_stage x = SOpen ->
          s_ready x = false /\ ~ In Complete (s_inbox x);
  y_cur : forall q todo s, w_job w = Some (JNotify (ForSub q) todo (Some s)) -> s = q;
  y_pub : forall q todo cur s x p y, w_job w = Some (JNotify (ForPub q) todo cur) -> get s (w_subs w) = Some x -> s_stage x = SOpen ->
          p <> q -> In p (w_clients w) -> get p (w_pubs w) = Some y -> (In p (s_chans x) <-> connected w (p_topic y) (s_topic x))
}.

Lemma Sync_start : Sync start.
Proof. constructor; cbn; discriminate. Qed.

(* A change that leaves the job, the graph and the subscribers, and adds no client. *)
Lemma Sync_frame w w' : Sync w -> w_dag w' = w_dag w -> w_job w' = w_job w ->
  (forall p y', In p (w_clients w') -> get p (w_pubs w') = Some y' ->
     (In p (w_clients w) /\ exists y, get p (w_pubs w) = Some y /\ p_topic y = p_topic y')) ->
  (forall s x', get s (w_subs w') = Some x' ->
     (s_stage x' = SAsked /\ s_ready x' = false) \/ (s_stage x' <> SOpen /\ s_stage x' <> SAsked) \/
     exists x, get s (w_subs w) = Some x /\ s_topic x = s_topic x' /\ s_stage x = s_stage x' /\ s_ready x = s_ready x' /\ s_inbox x = s_inbox x' /\
               s_work x = s_work x' /\ s_chans x = s_chans x' /\ s_acks x = s_acks x') ->
  Sync w'.
Proof.
  intros Y D J P S. constructor.
  - intros s x G O. destruct (S s x G) as [[A _]|[[A _]|[x0 [G0 [E1 [E2 [E3 [E4 [E5 [E6 E7]]]]]]]]]]; try congruence.
    unfold pending, awaited. rewrite J, <- E4, <- E5, <- E7. apply (y_count _ Y s x0 G0). congruence.
  - intros s x G O. destruct (S s x G) as [[_ A]|[[_ A]|[x0 [G0 [E1 [E2 [E3 _]]]]]]]; [exact A|congruence|].
    rewrite <- E3. apply (y_asked _ Y s x0 G0). congruence.
  - intros s x todo cur JJ G O. destruct (S s x G) as [[A _]|[[A _]|[x0 [G0 [E1 [E2 [E3 [E4 _]]]]]]]]; try congruence.
    rewrite <- E3, <- E4. rewrite J in JJ. eapply (y_sub _ Y); eauto. congruence.
  - rewrite J. exact (y_cur _ Y).
  - intros q todo cur s x p y JJ G O N C GP. destruct (S s x G) as [[A _]|[[A _]|[x0 [G0 [E1 [E2 [E3 [E4 [E5 [E6 E7]]]]]]]]]]; try congruence.
    destruct (P p y C GP) as [C0 [y0 [GP0 T]]]. unfold connected. rewrite <- E6, <- E1, <- T, D. rewrite J in JJ. eapply (y_pub _ Y); eauto. congruence.
Qed.

Lemma same_pubs w : forall p y', In p (w_clients w) -> get p (w_pubs w) = Some y' -> (In p (w_clients w) /\ exists y, get p (w_pubs w) = Some y /\ p_topic y = p_topic y').
Proof. eauto. Qed.

Lemma same_sub (w : world) s x : get s (w_subs w) = Some x -> exists x0, get s (w_subs w) = Some x0 /\ s_topic x0 = s_topic x /\ s_stage x0 = s_stage x /\ s_ready x0 = s_ready x /\ s_inbox x0 = s_inbox x /\
               s_work x0 = s_work x /\ s_chans x0 = s_chans x /\ s_acks x0 = s_acks x.
Proof. intros G. exists x. repeat split; auto. Qed.

Lemma Sync_put_pub w q y y' : Sync w -> get q (w_pubs w) = Some y -> p_topic y' = p_topic y -> Sync (put_pub q y' w).
Proof.
  intros Y G T. apply (Sync_frame w); auto.
  - intros p z C GP. split; [exact C|]. cbn in GP. rewrite get_put in GP. destruct (dec p q) as [->|]; [injection GP as <-|]; eauto.
  - intros s x GS. right; right. now apply same_sub.
Qed.

Lemma Sync_ask w r : Sync w -> Sync (ask r w).
Proof. intros Y. apply (Sync_frame w); auto; [exact (same_pubs w)|]. intros s x G. right; right. now apply same_sub. Qed.

(* The job changes to one that awaits nobody and concerns no publisher; every subscriber is the same. *)
Lemma Sync_job w w' : Sync w -> w_subs w' = w_subs w ->
  (forall s x, get s (w_subs w) = Some x -> s_stage x = SOpen -> ~ awaited w s) ->
  (forall s, ~ awaited w' s) ->
  (forall s todo cur, w_job w' <> Some (JNotify (ForSub s) todo cur)) ->
  (forall q todo cur, w_job w' <> Some (JNotify (ForPub q) todo cur)) -> Sync w'.
Proof.
  intros Y S A A' B B'. constructor.
  - rewrite S. intros s x G O. left. split; [|apply A']. destruct (y_count _ Y s x G O) as [[X _]|[_ X]]; [exact X|destruct (A s x G O X)].
  - rewrite S. exact (y_asked _ Y).
  - intros s x todo cur J. destruct (B _ _ _ J).
  - intros q todo s J. destruct (B _ _ _ J).
  - intros q todo cur s x p y J. destruct (B' _ _ _ J).
Qed.

Lemma awaited_none w s : w_job w = None -> ~ awaited w s.
Proof. intros E [c [todo H]]. congruence. Qed.
Lemma awaited_addr w p s : w_job w = Some (JAddress p) -> ~ awaited w s.
Proof. intros E [c [todo H]]. congruence. Qed.

Lemma quiet_view w s x : Good w -> get s (w_subs w) = Some x -> s_stage x = SOpen -> pending x = 0 -> ~ in_todo w s ->
  forall p y, In p (w_clients w) -> get p (w_pubs w) = Some y -> (In p (s_chans x) <-> connected w (p_topic y) (s_topic x)).
Proof.
  intros GD G O Z NT p y C GP. rewrite <- (v_view _ (g_view _ GD) s x G O NT p y C GP). unfold pending in Z. unfold view, applied.
  destruct (updates (s_inbox x)); [|cbn in Z; lia]. destruct (s_work x); [cbn in Z; lia|]. cbn. tauto.
Qed.

Lemma pending_view w s x : Good w -> get s (w_subs w) = Some x -> s_stage x = SOpen -> pending x <= 1 -> forall todo all, s_work x = Some (todo, all) -> view x = all.
Proof.
  intros GD G O Z todo all W. unfold pending in Z. unfold view, applied. rewrite W in *. destruct (updates (s_inbox x)); [|cbn in Z; lia]. reflexivity.
Qed.

Lemma sub_stage_client w s x : Good w -> get s (w_subs w) = Some x -> s_stage x = SOpen -> In s (w_clients w).
Proof. intros GD. apply open_client, GD. Qed.

Definition timeout (l : label) : bool := match l with TimeOut => true | _ => false end.

Lemma awaited_not_todo w s : Good w -> awaited w s -> ~ in_todo w s.
Proof.
  intros GD [c [todo E]] [c' [td [cu [E' I]]]]. rewrite E in E'. injection E' as <- <- <-.
  pose proof (c_job _ (g_ctl _ GD)) as J. unfold job_ok in J. rewrite E in J. destruct J as [_ [_ [_ [J _]]]]. exact (J s eq_refl I).
Qed.

(* One subscriber does something on its own account. *)
Lemma Sync_put_sub w s x x' : Good w -> Sync w -> get s (w_subs w) = Some x -> s_stage x = SOpen -> s_stage x' = SOpen -> s_topic x' = s_topic x ->
  pending x' = pending x ->
  (s_ready x = s_ready x' \/ In Complete (s_inbox x)) -> (In Complete (s_inbox x') -> In Complete (s_inbox x)) ->
  (forall q todo cur p y, w_job w = Some (JNotify (ForPub q) todo cur) -> p <> q -> In p (w_clients w) -> get p (w_pubs w) = Some y ->
     (In p (s_chans x') <-> connected w (p_topic y) (s_topic x))) ->
  Sync (put_sub s x' w).
Proof.
  intros GD Y G O O' T PE R IC CH. constructor.
  - intros z u GZ OZ. cbn in GZ. rewrite get_put in GZ. destruct (dec z s) as [->|]; [|exact (y_count _ Y z u GZ OZ)].
    injection GZ as <-. rewrite PE. exact (y_count _ Y s x G O).
  - intros z u GZ OZ. cbn in GZ. rewrite get_put in GZ. destruct (dec z s) as [->|]; [|exact (y_asked _ Y z u GZ OZ)]. injection GZ as <-. congruence.
  - intros z u todo cur J GZ OZ. cbn in GZ, J. rewrite get_put in GZ. destruct (dec z s) as [->|]; [|exact (y_sub _ Y z u todo cur J GZ OZ)].
    injection GZ as <-. destruct (y_sub _ Y s x todo cur J G O) as [A B]. split; [|tauto]. destruct R as [R|R]; [congruence|contradiction].
  - exact (y_cur _ Y).
  - intros q todo cur z u p y J GZ OZ N C GP. cbn in GZ, J, C, GP. rewrite get_put in GZ. destruct (dec z s) as [->|]; [|exact (y_pub _ Y q todo cur z u p y J GZ OZ N C GP)].
    injection GZ as <-. rewrite T. exact (CH q todo cur p y J N C GP).
Qed.

(* Whoever awaits a subscriber that has nothing pending, or that has gone, goes on. *)
Lemma Sync_set_sync w s : 
  (forall z x, z <> s -> get z (w_subs w) = Some x -> s_stage x = SOpen -> pending x = 0 /\ ~ awaited w z \/ pending x = 1 /\ awaited w z) ->
  (forall x, get s (w_subs w) = Some x -> s_stage x = SOpen -> pending x = 0) ->
  (forall z x, get z (w_subs w) = Some x -> s_stage x = SAsked -> s_ready x = false) ->
  (forall z x todo cur, w_job w = Some (JNotify (ForSub z) todo cur) -> get z (w_subs w) = Some x -> s_stage x = SOpen -> s_ready x = false /\ ~ In Complete (s_inbox x)) ->
  (forall q todo z, w_job w = Some (JNotify (ForSub q) todo (Some z)) -> z = q) ->
  (forall q todo cur z x p y, w_job w = Some (JNotify (ForPub q) todo cur) -> get z (w_subs w) = Some x -> s_stage x = SOpen ->
          p <> q -> In p (w_clients w) -> get p (w_pubs w) = Some y -> (In p (s_chans x) <-> connected w (p_topic y) (s_topic x))) ->
  Sync (set_sync s w).
Proof.
  intros A B C D K E. destruct (set_sync_fields s w) as [F1 [F2 [F3 [F4 [F5 [F6 F7]]]]]].
  assert (AW : forall z, awaited (set_sync s w) z <-> awaited w z /\ z <> s).
  { intros z. unfold awaited. split.
    - intros [c [todo H]]. destruct (set_sync_job _ _ _ _ _ H) as [[X Y]|[_ Y]]; [|discriminate]. split; [eauto|congruence].
    - intros [[c [todo H]] N]. destruct (set_sync_forward s w c todo _ H) as [cur' [X [[Y _]|[_ Y]]]]; [subst cur'; eauto|congruence]. }
  assert (JB : forall c todo cur, w_job (set_sync s w) = Some (JNotify c todo cur) -> exists cur', w_job w = Some (JNotify c todo cur')).
  { intros c todo cur H. destruct (set_sync_job _ _ _ _ _ H) as [[X _]|[X _]]; eauto. }
  constructor.
  - rewrite F2. intros z x G O. rewrite AW. destruct (dec z s) as [->|N]; [left; split; [exact (B x G O)|tauto]|].
    destruct (A z x N G O) as [[X Y]|[X Y]]; [left; tauto|right; tauto].
  - rewrite F2. exact C.
  - rewrite F2. intros z x todo cur J. destruct (JB _ _ _ J) as [cur' J']. exact (D z x todo cur' J').
  - intros q todo z J. destruct (set_sync_job _ _ _ _ _ J) as [[X _]|[_ X]]; [exact (K _ _ _ X)|discriminate].
  - rewrite F1, F2, F5. intros q todo cur z x p y J. destruct (JB _ _ _ J) as [cur' J']. unfold connected. rewrite F4. exact (E q todo cur' z x p y J').
Qed.

Lemma Sync_take w i w' : Good w -> Sync w -> step w (Take i) = Some w' -> Sync w'.
Proof.
  intros GD Y H. cbn [step] in H. destruct (w_job w) eqn:E; [discriminate|]. destruct (get i (w_waiting w)) as [r|] eqn:G; [|discriminate].
  assert (NA : forall s x, get s (w_subs w) = Some x -> s_stage x = SOpen -> ~ awaited w s) by (intros s x _ _; now apply awaited_none).
  unfold execute in H. destruct r as [| |f t|f t|].
  - injection H as <-. apply (Sync_job w); auto; cbn; try discriminate. intros s. apply awaited_addr with (p := i). reflexivity.
  - destruct (get i (w_subs (set_waiting (del i (w_waiting w)) w))) as [x|] eqn:GX; [|discriminate]. cbn in GX. injection H as <-.
    assert (SA : s_stage x = SOpen -> False).
    { intros O. destruct (c_sub _ (g_ctl _ GD) i x GX) as [_ [P _]]. rewrite O in P. destruct P as [P _]. congruence. }
    constructor.
    + intros s y GS O. left. cbn in GS. rewrite get_put in GS. split; [|intros [c [td X]]; discriminate]. destruct (dec s i) as [->|].
      * injection GS as <-. cbn in O. destruct (s_stage x) eqn:ST; try discriminate; [|destruct SA; reflexivity].
        destruct (c_sub _ (g_ctl _ GD) i x GX) as [_ [P _]]. rewrite ST in P. destruct P as [_ [P1 [P2 [P3 P4]]]]. unfold pending. cbn. rewrite P1, P2, P4. reflexivity.
      * destruct (y_count _ Y s y GS O) as [[X _]|[_ X]]; [exact X|]. destruct (NA s y GS O X).
    + intros s y GS O. cbn in GS. rewrite get_put in GS. destruct (dec s i) as [->|]; [|exact (y_asked _ Y s y GS O)].
      injection GS as <-. cbn in *. destruct (s_stage x); discriminate.
    + intros s y todo cur J GS O. cbn in J, GS. injection J as <- <- <-. rewrite get_put_eq in GS. injection GS as <-. cbn in *.
      destruct (s_stage x) eqn:ST; try discriminate; [|destruct SA; reflexivity]. split; [exact (y_asked _ Y i x GX ST)|].
      destruct (c_sub _ (g_ctl _ GD) i x GX) as [_ [P _]]. rewrite ST in P. destruct P as [_ [P1 _]]. rewrite P1. auto.
    + intros q todo s J. discriminate.
    + intros q todo cur s y p z J. discriminate.
  - cbn in H. destruct (add_edge f t None (w_dag w)) as [d r] eqn:A. destruct r; injection H as <-; apply (Sync_job w); auto;
      solve [intros s [c [td X]]; cbn in X; congruence | cbn; intros; rewrite ?E; discriminate].
  - cbn in H. destruct (remove_edge f t None (w_dag w)) as [d r] eqn:A. destruct r; injection H as <-; apply (Sync_job w); auto;
      solve [intros s [c [td X]]; cbn in X; congruence | cbn; intros; rewrite ?E; discriminate].
  - injection H as <-. apply (Sync_job w); auto; solve [intros s [c [td X]]; cbn in X; congruence | cbn; intros; rewrite ?E; discriminate].
Qed.

Lemma Sync_step w l w' : Good w -> Sync w -> timeout l = false -> step w l = Some w' -> Sync w'.
Proof.
  intros GD Y TO H. pose proof (g_ctl _ GD) as C. pose proof (g_view _ GD) as V.
  destruct l as [t|t|f t|f t| |p|s|p m|p|i|p|p| |s| | |p|s|s p|s p|s|p|s]; try discriminate TO.
  - cbn in H. injection H as <-. apply Sync_ask. apply (Sync_frame w); auto.
    + intros p y K GP. cbn in GP. rewrite get_put in GP. destruct (dec p (w_next w)) as [->|]; [|eauto]. destruct (client_new w C K).
    + intros s x G. right; right. now apply same_sub.
  - cbn in H. injection H as <-. apply Sync_ask. apply (Sync_frame w); auto; [exact (same_pubs w)|].
    intros s x G. cbn in G. rewrite get_put in G. destruct (dec s (w_next w)); [injection G as <-; auto|]. right; right. now apply same_sub.
  - cbn in H. injection H as <-. now apply Sync_ask.
  - cbn in H. injection H as <-. now apply Sync_ask.
  - cbn in H. injection H as <-. now apply Sync_ask.
  - cbn [step] in H. destruct (get p (w_pubs w)) as [x|] eqn:G; [|discriminate]. injection H as <-. eapply Sync_put_pub; eauto.
  - cbn [step] in H. destruct (get s (w_subs w)) as [x|] eqn:G; [|discriminate]. injection H as <-. apply (Sync_frame w); auto; [exact (same_pubs w)|].
    intros z y GZ. cbn in GZ. rewrite get_put in GZ. destruct (dec z s); [injection GZ as <-; right; left; split; discriminate|]. right; right. now apply same_sub.
  - cbn [step] in H. destruct (get p (w_pubs w)) as [[t g b]|]; [|discriminate]. destruct g; try discriminate. injection H as <-.
    apply (Sync_frame w); auto; [exact (same_pubs w)|]. intros s x G. cbn in G. rewrite get_map in G. destruct (get s (w_subs w)) as [y|] eqn:GY; [|discriminate].
    injection G as <-. right; right. exists y. unfold deliver. destruct (mem p (s_chans y)); repeat split; auto.
  - cbn [step] in H. destruct (get p (w_pubs w)) as [[t g b]|] eqn:G; [|discriminate]. destruct g; try discriminate.
    destruct (w_job w) as [[p'|]|] eqn:E; try discriminate. destruct (dec p p'); [|discriminate]. injection H as <-. eapply Sync_put_pub; eauto.
  - exact (Sync_take w i w' GD Y H).
  - cbn [step] in H. destruct (get p (w_pubs w)) as [[t g b]|] eqn:G; [|discriminate]. destruct g; try discriminate.
    destruct (w_job w) as [[p'|]|] eqn:E; try discriminate. destruct (dec p p'); [|discriminate]. injection H as <-. eapply Sync_put_pub; eauto.
  - cbn [step] in H. destruct (get p (w_pubs w)) as [[t g b]|] eqn:G; [|discriminate]. destruct b; [|discriminate].
    destruct (w_job w) as [[p'|c todo cur]|] eqn:E; try discriminate. destruct (dec p p') as [<-|]; [|discriminate]. injection H as <-.
    assert (Z : forall s x, get s (w_subs w) = Some x -> s_stage x = SOpen -> pending x = 0).
    { intros s x GS O. destruct (y_count _ Y s x GS O) as [[X _]|[_ X]]; [exact X|]. destruct (awaited_addr _ _ _ E X). }
    constructor.
    + intros s x GS O. left. split; [exact (Z s x GS O)|]. intros [c [td X]]. discriminate.
    + exact (y_asked _ Y).
    + discriminate.
    + discriminate.
    + intros q todo cur s x r y J GS O N K GP. cbn in J, GS, K, GP. injection J as <- <- <-. apply in_app_or in K as [K|[K|[]]]; [|congruence].
      change (In r (s_chans x) <-> connected w (p_topic y) (s_topic x)). apply (quiet_view w s x); auto; [exact (Z s x GS O)|].
      intros [c [td [cu [X _]]]]. congruence.
  - cbn [step] in H. destruct (w_job w) as [[|c todo cur]|] eqn:E; try discriminate. destruct todo as [|s todo]; [discriminate|]. destruct cur; [discriminate|].
    destruct (get s (w_subs w)) as [x|] eqn:G; [|discriminate]. injection H as <-.
    assert (NA : forall z, ~ awaited w z) by (intros z [c' [td X]]; congruence).
    constructor.
    + intros z u GZ OZ. cbn in GZ. rewrite get_put in GZ. destruct (dec z s) as [->|N].
      * injection GZ as <-. cbn in OZ. right. split; [|exists c, todo; reflexivity]. destruct (y_count _ Y s x G OZ) as [[X _]|[_ X]]; [|destruct (NA _ X)].
        unfold pending in *. cbn. rewrite updates_app, app_length. cbn. lia.
      * left. destruct (y_count _ Y z u GZ OZ) as [[X _]|[_ X]]; [|destruct (NA _ X)]. split; [exact X|]. intros [c' [td K]]. cbn in K. congruence.
    + intros z u GZ OZ. cbn in GZ. rewrite get_put in GZ. destruct (dec z s) as [->|N]; [|exact (y_asked _ Y z u GZ OZ)]. injection GZ as <-. exact (y_asked _ Y s x G OZ).
    + intros z u td cu J GZ OZ. cbn in J, GZ. injection J as -> <- <-. rewrite get_put in GZ. destruct (dec z s) as [->|N].
      * injection GZ as <-. destruct (y_sub _ Y s x _ _ E G OZ) as [A B]. split; [exact A|]. cbn. intros I. apply in_app_or in I as [I|[I|[]]]; [contradiction|discriminate].
      * exact (y_sub _ Y z u _ _ E GZ OZ).
    + intros q td z J. cbn in J. injection J as -> <- <-. pose proof (c_job _ C) as JO. unfold job_ok in JO. rewrite E in JO.
      destruct JO as [_ [_ [_ [_ [[[JO _]|JO] _]]]]]; congruence.
    + intros q td cu z u p y J GZ OZ N K GP. cbn in J, GZ, K, GP. injection J as -> <- <-. rewrite get_put in GZ. destruct (dec z s) as [->|NZ].
      * injection GZ as <-. exact (y_pub _ Y q _ _ s x p y E G OZ N K GP).
      * exact (y_pub _ Y q _ _ z u p y E GZ OZ N K GP).
  - cbn [step] in H. destruct (get s (w_subs w)) as [[t g r ib k c [|n] got]|] eqn:G; try discriminate. destruct (mem s (w_clients w)); [|discriminate]. injection H as <-.
    apply Sync_set_sync.
    + intros z x N GZ OZ. cbn in GZ. rewrite get_put_neq in GZ by exact N. exact (y_count _ Y z x GZ OZ).
    + intros x GX O. cbn in GX. rewrite get_put_eq in GX. injection GX as <-. destruct (y_count _ Y s _ G O) as [[X _]|[X _]]; unfold pending in *; cbn in *; lia.
    + intros z x GZ OZ. cbn in GZ. rewrite get_put in GZ. destruct (dec z s) as [->|]; [|exact (y_asked _ Y z x GZ OZ)]. injection GZ as <-. exact (y_asked _ Y s _ G OZ).
    + intros z x td cu J GZ OZ. cbn in J, GZ. rewrite get_put in GZ. destruct (dec z s) as [->|]; [|exact (y_sub _ Y z x td cu J GZ OZ)]. injection GZ as <-. exact (y_sub _ Y s _ td cu J G OZ).
    + exact (y_cur _ Y).
    + intros q td cu z x p y J GZ OZ. cbn in J, GZ. rewrite get_put in GZ. destruct (dec z s) as [->|]; [|exact (y_pub _ Y q td cu z x p y J GZ OZ)]. injection GZ as <-. exact (y_pub _ Y q td cu s _ p y J G OZ).
  - cbn [step] in H. destruct (w_job w) as [[|c todo cur]|] eqn:E; try discriminate. destruct todo; [|discriminate]. destruct cur; [discriminate|].
    assert (NA : forall z, ~ awaited w z) by (intros z [c' [td X]]; congruence).
    assert (Y1 : Sync (set_job None w)).
    { apply (Sync_job w); auto; try discriminate. intros s. now apply awaited_none. }
    destruct c as [p|s|].
    + destruct (get p (w_pubs w)) as [[t g b]|] eqn:G; [|injection H as <-; exact Y1]. destruct g; injection H as <-; try exact Y1.
      eapply Sync_put_pub; [exact Y1|exact G|reflexivity].
    + destruct (get s (w_subs w)) as [x|] eqn:G; [|injection H as <-; exact Y1]. injection H as <-. constructor.
      * intros z u GZ OZ. cbn in GZ. rewrite get_put in GZ. left. split; [|now apply awaited_none]. destruct (dec z s) as [->|N].
        { injection GZ as <-. destruct (y_count _ Y s x G OZ) as [[X _]|[_ X]]; [|destruct (NA _ X)]. unfold pending in *. cbn. rewrite updates_app, app_nil_r. exact X. }
        { destruct (y_count _ Y z u GZ OZ) as [[X _]|[_ X]]; [exact X|destruct (NA _ X)]. }
      * intros z u GZ OZ. cbn in GZ. rewrite get_put in GZ. destruct (dec z s) as [->|]; [|exact (y_asked _ Y z u GZ OZ)]. injection GZ as <-. exact (y_asked _ Y s x G OZ).
      * discriminate.
      * discriminate.
      * discriminate.
    + injection H as <-. exact Y1.
  - cbn [step] in H. destruct (get p (w_pubs w)) as [[t g b]|] eqn:G; [|discriminate]. destruct g; try discriminate. injection H as <-. eapply Sync_put_pub; eauto.
  - cbn [step] in H. destruct (get s (w_subs w)) as [[t g r ib k c n got]|] eqn:G; [|discriminate]. destruct g; try discriminate. destruct ib as [|m ib]; [discriminate|].
    destruct k; [discriminate|]. injection H as <-.
    destruct m as [ps|]; (eapply (Sync_put_sub w s); [exact GD|exact Y|exact G|reflexivity|reflexivity|reflexivity| | | |]); cbn.
    + unfold pending. cbn. lia.
    + now left.
    + auto.
    + intros q td cu p y J N K GP. exact (y_pub _ Y q td cu s _ p y J G eq_refl N K GP).
    + reflexivity.
    + right. now left.
    + auto.
    + intros q td cu p y J N K GP. exact (y_pub _ Y q td cu s _ p y J G eq_refl N K GP).
  - cbn [step] in H. destruct (get s (w_subs w)) as [[t g r ib k c n got]|] eqn:G; [|discriminate]. destruct g; try discriminate. destruct k as [[td al]|]; [|discriminate].
    destruct (get p (w_pubs w)) as [pz|] eqn:GP0; [|discriminate]. destruct (mem p td && reachable (p_stage pz)) eqn:B; [|discriminate]. injection H as <-.
    apply andb_true_iff in B as [B _]. apply mem_In in B.
    eapply (Sync_put_sub w s); [exact GD|exact Y|exact G|reflexivity|reflexivity|reflexivity|reflexivity|now left|auto|].
    cbn. intros q tdj cu r0 y J N K GP. pose proof (y_pub _ Y q tdj cu s _ r0 y J G eq_refl N K GP) as X. cbn in X. rewrite In_sadd. split; [|rewrite <- X; auto].
    intros [->|I]; [|now apply X].
    destruct (y_count _ Y s _ G eq_refl) as [[Z _]|[Z AW]]; [unfold pending in Z; cbn in Z; lia|].
    rewrite <- (v_view _ V s _ G eq_refl (awaited_not_todo _ _ GD AW) p y K GP).
    rewrite (pending_view w s _ GD G eq_refl (Nat.eq_le_incl _ _ Z) td al eq_refl). destruct (v_work _ V s _ G) as [W1 _]. destruct (W1 td al eq_refl) as [X1 _]. exact (X1 p B).
  - cbn [step] in H. destruct (get s (w_subs w)) as [[t g r ib k c n got]|] eqn:G; [|discriminate]. destruct g; try discriminate. destruct k as [[td al]|]; [|discriminate].
    destruct (get p (w_pubs w)); [|discriminate]. destruct (_ && _); [|discriminate]. injection H as <-. apply (Sync_frame w); auto; [exact (same_pubs w)|].
    intros z y GZ. cbn in GZ. rewrite get_put in GZ. destruct (dec z s); [injection GZ as <-; right; left; split; discriminate|]. right; right. now apply same_sub.
  - cbn [step] in H. destruct (get s (w_subs w)) as [[t g r ib k c n got]|] eqn:G; [|discriminate]. destruct g; try discriminate. destruct k as [[[|] al]|]; try discriminate.
    injection H as <-.
    eapply (Sync_put_sub w s); [exact GD|exact Y|exact G|reflexivity|reflexivity|reflexivity| |now left|auto|].
    + unfold pending. cbn. lia.
    + cbn. intros q tdj cu r0 y J N K GP. pose proof (y_pub _ Y q tdj cu s _ r0 y J G eq_refl N K GP) as X. cbn in X. rewrite filter_In, mem_In. split; [rewrite X; tauto|].
      intros Z. split; [now apply X|].
      destruct (y_count _ Y s _ G eq_refl) as [[Z' _]|[Z' AW]]; [unfold pending in Z'; cbn in Z'; lia|].
      pose proof (v_view _ V s _ G eq_refl (awaited_not_todo _ _ GD AW) r0 y K GP) as VV.
      rewrite (pending_view w s _ GD G eq_refl (Nat.eq_le_incl _ _ Z') [] al eq_refl) in VV. now apply VV.
  - cbn [step] in H. destruct (get p (w_pubs w)) as [[t g b]|] eqn:G; [|discriminate]. destruct g; try discriminate. destruct (mem p (w_clients w)).
    + injection H as <-. apply (Sync_frame w); auto.
      * intros q y K GP. cbn in K. apply In_sdel in K as [_ K]. eauto.
      * intros q x GS. right; right. now apply same_sub.
    + destruct (w_job w) as [[p'|]|] eqn:E; try discriminate. destruct (dec p p'); [|discriminate]. destruct b; [discriminate|]. injection H as <-.
      apply (Sync_job w); auto; try discriminate; intros q; try (now apply awaited_none). intros x _ _. exact (awaited_addr _ _ _ E).
  - cbn [step] in H. destruct (get s (w_subs w)) as [x|] eqn:G; [|discriminate]. destruct (mem s (w_clients w)); [|discriminate].
    destruct (match s_stage x with SDead | SClosed => true | _ => false end) eqn:D; [|discriminate]. injection H as <-. apply Sync_set_sync; cbn.
    + intros z u N GZ OZ. exact (y_count _ Y z u GZ OZ).
    + intros u GU O. rewrite G in GU. injection GU as <-. rewrite O in D. discriminate.
    + exact (y_asked _ Y).
    + exact (y_sub _ Y).
    + exact (y_cur _ Y).
    + intros q td cu z u p y J GZ OZ N K GP. apply In_sdel in K as [_ K]. exact (y_pub _ Y q td cu z u p y J GZ OZ N K GP).
Qed.

Lemma Sync_steps ls : forall w w', Good w -> Sync w -> forallb (fun l => negb (timeout l)) ls = true -> steps w ls = Some w' -> Sync w'.
Proof.
  induction ls as [|l ls IH]; intros w w' G Y T H; cbn in H, T; [injection H as <-; exact Y|].
  apply andb_true_iff in T as [T1 T2]. apply negb_true_iff in T1.
  destruct (step w l) as [w1|] eqn:E; [|discriminate]. eapply IH; [exact (Good_step _ _ _ G E)|exact (Sync_step _ _ _ G Y T1 E)|exact T2|exact H].
Qed.

(** Without a time-out and outside of connect() and disconnect(), channels are as they should be. *)
Lemma chans_right w p t s x : Good w -> Sync w -> ~ changing w -> publisher w p t -> get s (w_subs w) = Some x -> s_stage x = SOpen -> s_ready x = true ->
  (In p (s_chans x) <-> connected w t (s_topic x)).
Proof.
  intros GD Y NC [b GP] G O R. destruct (c_pub _ (g_ctl _ GD) p _ GP) as [_ [_ [P _]]]. cbn in P. destruct P as [_ [_ [PC PA]]].
  change t with (p_topic (mkPub t PReady b)).
  destruct (w_job w) as [[q|c todo cur]|] eqn:E.
  - apply (quiet_view w s x); auto; [|intros [c [td [cu [X _]]]]; congruence].
    destruct (y_count _ Y s x G O) as [[X _]|[_ X]]; [exact X|destruct (awaited_addr _ _ _ E X)].
  - destruct c as [q|q|].
    + eapply (y_pub _ Y); eauto. intros ->. apply PA. apply about_notify. reflexivity.
    + assert (N : s <> q). { intros ->. destruct (y_sub _ Y q x _ _ E G O). congruence. }
      pose proof (c_job _ (g_ctl _ GD)) as J. unfold job_ok in J. rewrite E in J. destruct J as [_ [_ [_ [J4 [J5 _]]]]].
      destruct (y_count _ Y s x G O) as [[X _]|[_ [c' [td' X]]]].
      * apply (quiet_view w s x); auto. intros [c [td [cu [Z I]]]]. rewrite E in Z. injection Z as <- <- <-. destruct J5 as [[-> _]| ->]; [|exact I]. destruct I as [->|[]]. congruence.
      * exfalso. rewrite E in X. injection X as <- <- ->. exact (N (y_cur _ Y _ _ _ E)).
    + exfalso. apply NC. exists todo, cur. exact E.
  - apply (quiet_view w s x); auto; [|intros [c [td [cu [X _]]]]; congruence].
    destruct (y_count _ Y s x G O) as [[X _]|[_ X]]; [exact X|destruct (awaited_none _ _ E X)].
Qed.
