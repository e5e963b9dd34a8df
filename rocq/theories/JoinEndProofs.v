(* Every call returns. *)

From Coq Require Import String List Arith Bool Lia Relations.
From Verif Require Import Dict DagModel DagSpec DagProofs JoinModel JoinSpec JoinProofs JoinCtlProofs JoinViewProofs JoinSyncProofs JoinLiveProofs.
Import ListNotations.

(* ---- what is left to do ---- *)

Section Measure.
Context {V : Type}.
Variable f : V -> nat.
Fixpoint msum (l : list (nat * V)) : nat := match l with [] => 0 | e :: r => f (snd e) + msum r end.
Lemma msum_put k v o l : get k l = Some o -> msum (put k v l) + f o = msum l + f v.
Proof.
  induction l as [|[k' v'] l IH]; cbn; [discriminate|]. destruct (dec k k') as [<-|N]; intros G.
  - injection G as <-. cbn. lia.
  - cbn. specialize (IH G). lia.
Qed.
End Measure.

Definition big (n : nat) : nat := n * (n + 6).
Definition wmsg (n : nat) (m : smsg) : nat := match m with Update _ => n + 3 | Complete => 1 end.
Fixpoint winbox (n : nat) (l : list smsg) : nat := match l with [] => 0 | m :: r => wmsg n m + winbox n r end.
Definition wsub (n : nat) (x : sub) : nat :=
  winbox n (s_inbox x) + (match s_work x with Some (todo, _) => length todo + 2 | None => 0 end) + s_acks x.
Definition wpub (y : pub) : nat := match p_stage y with PAsked => 3 | PListens => 2 | PTold => 1 | _ => 0 end.
Definition wjob (n : nat) (j : option job) : nat :=
  match j with
  | None => 0
  | Some (JAddress _) => big n + 5
  | Some (JNotify _ todo cur) => length todo * (n + 6) + (match cur with Some _ => 1 | None => 0 end) + 3
  end.
Definition todo_left (w : world) : nat :=
  msum wpub (w_pubs w) + msum (wsub (w_next w)) (w_subs w) + length (w_clients w) + length (w_waiting w) * (big (w_next w) + 12) + wjob (w_next w) (w_job w).

Ltac fields := cbn [w_pubs w_subs w_next w_clients w_waiting w_job set_job set_pubs set_subs set_clients set_waiting set_dag answer_call put_pub put_sub wjob length].

Lemma winbox_app n a b : winbox n (a ++ b) = winbox n a + winbox n b.
Proof. induction a as [|m a IH]; cbn; [reflexivity|]. rewrite IH. lia. Qed.

Lemma set_sync_less s w : todo_left (set_sync s w) <= todo_left w.
Proof.
  unfold set_sync. destruct (w_job w) as [[p|c todo [s'|]]|] eqn:E; auto. destruct (dec s s'); auto. unfold todo_left. cbn [w_pubs w_subs w_next w_clients w_waiting w_job set_job]. rewrite E. cbn [wjob]. lia.
Qed.

Lemma del_shorter {V} (i : nat) (r : V) l : get i l = Some r -> S (length (del i l)) <= length l.
Proof.
  assert (X : forall l : list (nat * V), length (del i l) <= length l) by (intros l0; apply filter_length_le).
  induction l as [|[k v] l IH]; cbn; [discriminate|]. unfold eqd. destruct (dec i k); cbn; intros G; [specialize (X l); unfold del, eqd in X; lia|specialize (IH G); unfold del, eqd in IH; lia].
Qed.

Lemma sdel_shorter (i : nat) l : mem i l = true -> S (length (sdel i l)) <= length l.
Proof.
  intros M. apply mem_In in M.
  assert (X : forall l, length (sdel i l) <= length l) by (intros l0; apply filter_length_le).
  induction l as [|k l IH]; cbn; [destruct M|]. unfold eqd. destruct (dec i k) as [->|N]; cbn; [specialize (X l); unfold sdel, eqd in X; lia|].
  destruct M as [M|M]; [congruence|]. specialize (IH M). unfold sdel, eqd in IH. lia.
Qed.

Lemma sdel_shorter_in (i : nat) l : In i l -> S (length (sdel i l)) <= length l.
Proof. intros M. apply sdel_shorter. now apply mem_In. Qed.

Lemma todo_put_pub w q y y' : get q (w_pubs w) = Some y -> wpub y' < wpub y -> todo_left (put_pub q y' w) < todo_left w.
Proof. intros G L. unfold todo_left. fields. pose proof (msum_put wpub q y' y _ G). lia. Qed.

Lemma todo_put_sub w q x x' : get q (w_subs w) = Some x -> wsub (w_next w) x' < wsub (w_next w) x -> todo_left (put_sub q x' w) < todo_left w.
Proof. intros G L. unfold todo_left. fields. pose proof (msum_put (wsub (w_next w)) q x' x _ G). lia. Qed.

Lemma big_le n k : k <= n -> k * (n + 6) <= big n.
Proof. intros L. unfold big. apply Nat.mul_le_mono_r. exact L. Qed.

Lemma big_one n : 0 < n -> n + 6 <= big n.
Proof. intros L. pose proof (big_le n 1 L). lia. Qed.

(** Each step the system takes by itself leaves less to do. *)
Lemma less_to_do w l w' : Good w -> by_itself l = true -> step w l = Some w' -> todo_left w' < todo_left w /\ w_next w' = w_next w.
Proof.
  intros GD B H. pose proof (g_ctl _ GD) as C. pose proof (g_view _ GD) as V.
  destruct l as [t|t|f t|f t| |p|s|p m|p|i|p|p| |s| | |p|s|s p|s p|s|p|s]; try discriminate B; cbn [step] in H.
  - destruct (w_job w) eqn:E; [discriminate|]. destruct (get i (w_waiting w)) as [r|] eqn:G; [|discriminate].
    pose proof (del_shorter i r _ G) as DL. destruct (c_wait _ C i r G) as [LI _].
    assert (BO : w_next w + 6 <= big (w_next w)) by (apply big_one; lia).
    assert (ML : S (length (del i (w_waiting w))) * (big (w_next w) + 12) <= length (w_waiting w) * (big (w_next w) + 12)) by (apply Nat.mul_le_mono_r; exact DL).
    assert (DS : forall t d a, length (downstream_subs t (answer_call i a (set_dag d (set_waiting (del i (w_waiting w)) w)))) * (w_next w + 6) <= big (w_next w)).
    { intros t d a. apply big_le. apply (downstream_subs_fine t (answer_call i a (set_dag d (set_waiting (del i (w_waiting w)) w))) (c_nodup _ C) (fun j H => proj1 (c_client _ C j H))). }
    unfold execute in H. destruct r as [| |f t|f t|].
    + injection H as <-. split; [|reflexivity]. unfold todo_left. fields. rewrite E. fields. cbn in ML. lia.
    + destruct (get i (w_subs (set_waiting (del i (w_waiting w)) w))) as [x|] eqn:GX; [|discriminate]. cbn in GX. injection H as <-. split; [|reflexivity].
      unfold todo_left. cbn [w_pubs w_subs w_next w_clients w_waiting w_job set_job set_clients set_waiting put_sub set_subs wjob length]. rewrite E, app_length. cbn [wjob length].
      match goal with |- context [put i ?z _] => pose proof (msum_put (wsub (w_next w)) i z x _ GX) as MP; assert (wsub (w_next w) z = wsub (w_next w) x) by reflexivity end.
      cbn in ML. lia.
    + destruct (add_edge f t None (w_dag (set_waiting (del i (w_waiting w)) w))) as [d []]; injection H as <-; (split; [|reflexivity]); unfold todo_left;
        cbn [w_pubs w_subs w_next w_clients w_waiting w_job set_job set_dag answer_call set_waiting wjob]; rewrite E; cbn [wjob]; try specialize (DS t d AComplete); cbn in ML; lia.
    + destruct (remove_edge f t None (w_dag (set_waiting (del i (w_waiting w)) w))) as [d []]; injection H as <-; (split; [|reflexivity]); unfold todo_left;
        cbn [w_pubs w_subs w_next w_clients w_waiting w_job set_job set_dag answer_call set_waiting wjob]; rewrite E; cbn [wjob]; try specialize (DS t d AComplete); cbn in ML; lia.
    + injection H as <-. split; [|reflexivity]. unfold todo_left. fields. rewrite E. fields. cbn in ML. lia.
  - destruct (get p (w_pubs w)) as [[t g b]|] eqn:G; [|discriminate]. destruct g; try discriminate. destruct (w_job w) as [[p'|]|]; try discriminate. destruct (dec p p'); [|discriminate]. injection H as <-.
    split; [|reflexivity]. eapply todo_put_pub; [exact G|]. cbn. lia.
  - destruct (get p (w_pubs w)) as [[t g b]|] eqn:G; [|discriminate]. destruct b; [|discriminate]. destruct (w_job w) as [[p'|]|] eqn:E; try discriminate. destruct (dec p p'); [|discriminate]. injection H as <-.
    split; [|reflexivity]. subst p'. set (w1 := set_clients _ w).
    assert (DS : length (downstream_subs t w1) * (w_next w + 6) <= big (w_next w)).
    { apply big_le. apply (downstream_subs_fine t w1).
      - apply NoDup_app_one; [exact (c_nodup _ C)|]. destruct (c_pub _ C p _ G) as [_ [_ [_ [P _]]]]. exact (proj2 (P E)).
      - unfold w1. cbn. intros j I. apply in_app_or in I as [I|[<-|[]]]; [exact (proj1 (c_client _ C j I))|]. exact (proj1 (c_pub _ C p _ G)). }
    unfold todo_left. cbn [w_pubs w_subs w_next w_clients w_waiting w_job set_job]. unfold w1 at 1 2 3 4 5 6 7. cbn [w_pubs w_subs w_next w_clients w_waiting w_job set_clients]. rewrite E, app_length. cbn [wjob length]. lia.
  - destruct (w_job w) as [[|c todo cur]|] eqn:E; try discriminate. destruct todo as [|s todo]; [discriminate|]. destruct cur; [discriminate|].
    destruct (get s (w_subs w)) as [x|] eqn:G; [|discriminate]. injection H as <-. split; [|reflexivity].
    unfold todo_left. cbn [w_pubs w_subs w_next w_clients w_waiting w_job set_job put_sub set_subs]. rewrite E. cbn [wjob length].
    match goal with |- context [put s ?z _] => pose proof (msum_put (wsub (w_next w)) s z x _ G) as MP; assert (wsub (w_next w) z = wsub (w_next w) x + (w_next w + 3)) by (unfold wsub; cbn; rewrite winbox_app; cbn; lia) end.
    lia.
  - destruct (get s (w_subs w)) as [[t g r ib k c [|n] got]|] eqn:G; try discriminate. destruct (mem s (w_clients w)); [|discriminate]. injection H as <-.
    split; [|rewrite (proj1 (proj2 (proj2 (set_sync_fields s _)))); reflexivity]. eapply Nat.le_lt_trans; [apply set_sync_less|]. eapply todo_put_sub; [exact G|]. unfold wsub. cbn. lia.
  - destruct (w_job w) as [[|c todo [s|]]|] eqn:E; try discriminate. injection H as <-. split; [|reflexivity]. unfold todo_left. fields. rewrite E. fields. lia.
  - destruct (w_job w) as [[|c todo cur]|] eqn:E; try discriminate. destruct todo; [|discriminate]. destruct cur; [discriminate|].
    assert (L : todo_left (set_job None w) + 3 <= todo_left w) by (unfold todo_left; fields; rewrite E; fields; lia). destruct c as [p|s|].
    + destruct (get p (w_pubs w)) as [[t g b]|] eqn:G; [|injection H as <-; split; [lia|reflexivity]].
      destruct g; injection H as <-; (split; [|reflexivity]); try lia.
      eapply Nat.lt_le_trans; [eapply todo_put_pub; [exact G|cbn; lia]|]. lia.
    + destruct (get s (w_subs w)) as [x|] eqn:G; [|injection H as <-; split; [lia|reflexivity]]. injection H as <-. split; [|reflexivity].
      assert (M : todo_left (put_sub s (mkSub (s_topic x) (s_stage x) (s_ready x) (s_inbox x ++ [Complete]) (s_work x) (s_chans x) (s_acks x) (s_got x)) (set_job None w)) = todo_left (set_job None w) + 1).
      { unfold todo_left. fields. match goal with |- context [put s ?z _] => pose proof (msum_put (wsub (w_next w)) s z x _ G) as MP; assert (wsub (w_next w) z = wsub (w_next w) x + 1) by (unfold wsub; cbn; rewrite winbox_app; cbn; lia) end. lia. }
      lia.
    + injection H as <-. split; [lia|reflexivity].
  - destruct (get p (w_pubs w)) as [[t g b]|] eqn:G; [|discriminate]. destruct g; try discriminate. injection H as <-. split; [|reflexivity]. eapply todo_put_pub; [exact G|]. cbn. lia.
  - destruct (get s (w_subs w)) as [[t g r ib k c n got]|] eqn:G; [|discriminate]. destruct g; try discriminate. destruct ib as [|m ib]; [discriminate|].
    destruct k; [discriminate|]. injection H as <-. split; [|reflexivity]. eapply todo_put_sub; [exact G|]. destruct (v_work _ V s _ G) as [_ W]. cbn in W.
    destruct m as [ps|]; unfold wsub; cbn; [|lia]. pose proof (filter_length_le (fun p => negb (mem p c)) ps). specialize (W ps (or_introl eq_refl)). lia.
  - destruct (get s (w_subs w)) as [[t g r ib k c n got]|] eqn:G; [|discriminate]. destruct g; try discriminate. destruct k as [[td al]|]; [|discriminate].
    destruct (get p (w_pubs w)) as [pz|]; [|discriminate]. destruct (mem p td && reachable (p_stage pz)) eqn:M; [|discriminate]. injection H as <-. split; [|reflexivity]. eapply todo_put_sub; [exact G|].
    apply andb_true_iff in M as [M _]. pose proof (sdel_shorter p td M). unfold wsub. cbn. lia.
  - destruct (get s (w_subs w)) as [[t g r ib k c n got]|] eqn:G; [|discriminate]. destruct g; try discriminate. destruct k as [[td al]|]; [|discriminate].
    destruct (get p (w_pubs w)); [|discriminate]. destruct (_ && _); [|discriminate]. injection H as <-. split; [|reflexivity]. eapply todo_put_sub; [exact G|]. unfold wsub. cbn. lia.
  - destruct (get s (w_subs w)) as [[t g r ib k c n got]|] eqn:G; [|discriminate]. destruct g; try discriminate. destruct k as [[[|] al]|]; try discriminate. injection H as <-.
    split; [|reflexivity]. eapply todo_put_sub; [exact G|]. unfold wsub. cbn. lia.
  - destruct (get p (w_pubs w)) as [[t g b]|] eqn:G; [|discriminate]. destruct g; try discriminate. destruct (mem p (w_clients w)) eqn:M.
    + injection H as <-. split; [|reflexivity]. pose proof (sdel_shorter p _ M). unfold todo_left. fields. lia.
    + destruct (w_job w) as [[p'|]|] eqn:E; try discriminate. destruct (dec p p'); [|discriminate]. destruct b; [discriminate|]. injection H as <-. split; [|reflexivity].
      unfold todo_left. fields. rewrite E. fields. lia.
  - destruct (get s (w_subs w)) as [x|] eqn:G; [|discriminate]. destruct (mem s (w_clients w)) eqn:M; [|discriminate]. destruct (match s_stage x with SDead | SClosed => true | _ => false end); [|discriminate]. injection H as <-.
    split; [|rewrite (proj1 (proj2 (proj2 (set_sync_fields s _)))); reflexivity]. eapply Nat.le_lt_trans; [apply set_sync_less|]. pose proof (sdel_shorter s _ M). unfold todo_left. fields. lia.
Qed.

Lemma bounded ls : forall w w', Good w -> (forall l, In l ls -> by_itself l = true) -> steps w ls = Some w' -> length ls + todo_left w' <= todo_left w.
Proof.
  induction ls as [|l ls IH]; intros w w' GD B H; cbn in H; [injection H as <-; cbn; lia|].
  destruct (step w l) as [w1|] eqn:E; [|discriminate].
  destruct (less_to_do w l w1 GD (B l (or_introl eq_refl)) E) as [L _].
  specialize (IH w1 w' (Good_step _ _ _ GD E) (fun l I => B l (or_intror I)) H). cbn. lia.
Qed.

(* ---- nothing happens any more ---- *)

Lemma rest_job w : Good w -> at_rest w -> w_job w = None \/ exists p y, w_job w = Some (JAddress p) /\ get p (w_pubs w) = Some y /\ p_stage y = PRaised.
Proof.
  intros GD R. pose proof (g_ctl _ GD) as C. pose proof (c_job _ C) as J. unfold job_ok in J. destruct (w_job w) as [[p|c todo cur]|] eqn:E; [| |now left].
  - right. destruct J as [y G]. exists p, y. split; [reflexivity|]. split; [exact G|]. destruct y as [t g b]. cbn.
    destruct (c_pub _ C p _ G) as [_ [_ [P [P1 _]]]]. cbn in P.
    assert (REG : b = true -> False).
    { intros ->. specialize (R (Register p) eq_refl). cbn [step] in R. rewrite G, E in R. destruct (dec p p); [discriminate|congruence]. }
    destruct g; auto.
    + specialize (R (Listen p) eq_refl). cbn [step] in R. rewrite G, E in R. destruct (dec p p); [discriminate|congruence].
    + destruct P as [P _]. destruct (REG P).
    + destruct P as [P _]. destruct (REG P).
    + destruct P as [P _]. destruct (REG P).
    + destruct b; [destruct (REG eq_refl)|]. specialize (R (PubGone p) eq_refl). cbn [step] in R. rewrite G in R. destruct (mem p (w_clients w)); [discriminate|]. rewrite E in R. destruct (dec p p); [discriminate|congruence].
  - exfalso. destruct cur as [s|].
    + specialize (R TimeOut eq_refl). cbn [step] in R. rewrite E in R. discriminate.
    + destruct todo as [|s todo].
      * specialize (R Finish eq_refl). cbn [step] in R. rewrite E in R. destruct c as [p|s|]; [|destruct (get s (w_subs w)); discriminate|discriminate].
        destruct (get p (w_pubs w)) as [[t g b]|]; [destruct g|]; discriminate.
      * specialize (R Notify eq_refl). cbn [step] in R. rewrite E in R. destruct J as [_ [_ [J _]]]. destruct (J s (or_introl eq_refl)) as [_ [x G]]. rewrite G in R. discriminate.
Qed.

Lemma rest_waiting w i : Good w -> at_rest w -> w_job w = None -> get i (w_waiting w) = None.
Proof.
  intros GD R E. destruct (get i (w_waiting w)) as [r|] eqn:G; [|reflexivity]. exfalso. specialize (R (Take i) eq_refl). cbn [step] in R. rewrite E, G in R.
  destruct (c_wait _ (g_ctl _ GD) i r G) as [_ W]. unfold execute in R. destruct r as [| |f t|f t|]; try discriminate.
  - destruct W as [x W]. cbn in R. rewrite W in R. discriminate.
  - destruct (add_edge _ _ _ _) as [d []]; discriminate.
  - destruct (remove_edge _ _ _ _) as [d []]; discriminate.
Qed.

Lemma rest_pub w p y : Good w -> at_rest w -> w_job w = None -> get p (w_pubs w) = Some y -> p_stage y = PReady \/ p_stage y = PGone.
Proof.
  intros GD R E G. destruct (c_pub _ (g_ctl _ GD) p y G) as [_ [_ [P _]]]. pose proof (rest_waiting w p GD R E) as WN. rewrite E in P. destruct y as [t g b]. cbn in P. cbn. destruct g; auto; exfalso.
  - destruct P as [_ [_ [[P _]|[_ P]]]]; [congruence|discriminate].
  - destruct P as [_ [_ [[P _]|[P _]]]]; [discriminate|destruct (about_none _ P)].
  - specialize (R (PubReturns p) eq_refl). cbn [step] in R. rewrite G in R. discriminate.
  - destruct P as [_ [_ [_ P]]]. discriminate.
Qed.

Lemma rest_sub w s x : Good w -> at_rest w -> w_job w = None -> get s (w_subs w) = Some x ->
  (s_stage x = SOpen /\ s_ready x = true /\ s_inbox x = [] /\ s_work x = None) \/ s_stage x = SDead \/ s_stage x = SClosed.
Proof.
  intros GD R E G. destruct (c_sub _ (g_ctl _ GD) s x G) as [_ [P _]]. pose proof (rest_waiting w s GD R E) as WN. destruct x as [t g r ib k c n got]. cbn in *. destruct g; auto.
  - destruct P as [P _]. congruence.
  - left. split; [reflexivity|].
    assert (K : k = None).
    { destruct k as [[td al]|]; [|reflexivity]. exfalso. destruct td as [|p td].
      - specialize (R (Applied s) eq_refl). cbn [step] in R. rewrite G in R. discriminate.
      - destruct (v_work _ (g_view _ GD) s _ G) as [W _]. destruct (W (p :: td) al eq_refl) as [W1 _].
        assert (M : mentioned (mkSub t SOpen r ib (Some (p :: td, al)) c n got) p) by (right; left; exists (p :: td), al; split; [reflexivity|apply W1; now left]).
        destruct (v_known _ (g_view _ GD) s _ p G M) as [y [GY _]].
        assert (MM : mem p (p :: td) = true) by (apply mem_In; now left).
        pose proof (R (Join s p) eq_refl) as R1. pose proof (R (JoinFails s p) eq_refl) as R2. cbn [step] in R1, R2. rewrite G, GY, MM in R1, R2. cbn in R1, R2.
        destruct (reachable (p_stage y)); discriminate. }
    subst k. assert (IB : ib = []).
    { destruct ib as [|m ib]; [reflexivity|]. exfalso. specialize (R (Read s) eq_refl). cbn [step] in R. rewrite G in R. discriminate. }
    subst ib. repeat split; auto. destruct P as [_ [_ P]]. destruct r; [reflexivity|]. destruct (P eq_refl) as [[]|[td [cu P1]]]. congruence.
Qed.

(* ---- who can be hurt ---- *)

Definition no_gone (w : world) : Prop := forall p y, get p (w_pubs w) = Some y -> p_stage y <> PGone.
Definition no_raised (w : world) : Prop := forall p y, get p (w_pubs w) = Some y -> p_stage y <> PRaised.
Definition no_dead (w : world) : Prop := forall s x, get s (w_subs w) = Some x -> s_stage x <> SDead.
Definition no_closed (w : world) : Prop := forall s x, get s (w_subs w) = Some x -> s_stage x <> SClosed.

Definition pub_closes (l : label) : bool := match l with PubCloses _ => true | _ => false end.

Lemma pubs_step w l w' p y' : step w l = Some w' -> get p (w_pubs w') = Some y' ->
  (get p (w_pubs w) = Some y') \/ p_stage y' = PAsked \/ p_stage y' = PListens \/ p_stage y' = PTold \/ p_stage y' = PReady \/
  (l = PubCloses p /\ p_stage y' = PGone) \/ (l = PortFails p /\ p_stage y' = PRaised).
Proof.
  intros H G.
  assert (PUT : forall q z, w_pubs w' = put q z (w_pubs w) ->
    (p = q -> p_stage z = PAsked \/ p_stage z = PListens \/ p_stage z = PTold \/ p_stage z = PReady \/ (l = PubCloses p /\ p_stage z = PGone) \/ (l = PortFails p /\ p_stage z = PRaised)) ->
    (get p (w_pubs w) = Some y') \/ p_stage y' = PAsked \/ p_stage y' = PListens \/ p_stage y' = PTold \/ p_stage y' = PReady \/
    (l = PubCloses p /\ p_stage y' = PGone) \/ (l = PortFails p /\ p_stage y' = PRaised)).
  { intros q z E K. rewrite E, get_put in G. destruct (dec p q) as [->|]; [injection G as <-; right; now apply K|now left]. }
  destruct l as [t0|t0|f t0|f t0| |q|z|q m|q|k|q|q| |z| | |q|z|z q|z q|z|q|z]; cbn [step] in H;
    try (injection H as <-; left; exact G).
  - injection H as <-. eapply PUT; [reflexivity|]. cbn. auto.
  - destruct (get q (w_pubs w)) as [y|]; [|discriminate]. injection H as <-. eapply PUT; [reflexivity|]. cbn. intros ->. auto 10.
  - destruct (get z (w_subs w)); [|discriminate]. injection H as <-. now left.
  - destruct (get q (w_pubs w)) as [[t1 g b1]|]; [|discriminate]. destruct g; try discriminate. injection H as <-. now left.
  - destruct (get q (w_pubs w)) as [[t1 g b1]|]; [|discriminate]. destruct g; try discriminate. destruct (w_job w) as [[p'|]|]; try discriminate. destruct (dec q p'); [|discriminate]. injection H as <-.
    eapply PUT; [reflexivity|]. cbn. intros ->. auto 10.
  - destruct (w_job w); [discriminate|]. destruct (get k (w_waiting w)) as [r|]; [|discriminate]. unfold execute in H. destruct r as [| |f t0|f t0|].
    + injection H as <-. now left.
    + destruct (get k (w_subs (set_waiting (del k (w_waiting w)) w))); [|discriminate]. injection H as <-. now left.
    + destruct (add_edge _ _ _ _) as [d []]; injection H as <-; now left.
    + destruct (remove_edge _ _ _ _) as [d []]; injection H as <-; now left.
    + injection H as <-. now left.
  - destruct (get q (w_pubs w)) as [[t1 g b1]|]; [|discriminate]. destruct g; try discriminate. destruct (w_job w) as [[p'|]|]; try discriminate. destruct (dec q p'); [|discriminate]. injection H as <-.
    eapply PUT; [reflexivity|]. cbn. auto 10.
  - destruct (get q (w_pubs w)) as [[t1 g b1]|]; [|discriminate]. destruct b1; [|discriminate]. destruct (w_job w) as [[p'|]|]; try discriminate. destruct (dec q p'); [|discriminate]. injection H as <-. now left.
  - destruct (w_job w) as [[|c todo cur]|]; try discriminate. destruct todo as [|z todo]; [discriminate|]. destruct cur; [discriminate|].
    destruct (get z (w_subs w)); [|discriminate]. injection H as <-. now left.
  - destruct (get z (w_subs w)) as [[t1 g r ib k c [|n] got]|]; try discriminate. destruct (mem z (w_clients w)); [|discriminate]. injection H as <-.
    left. rewrite (proj1 (set_sync_fields z _)) in G. exact G.
  - destruct (w_job w) as [[|c todo [z|]]|]; try discriminate. injection H as <-. now left.
  - destruct (w_job w) as [[|c todo cur]|]; try discriminate. destruct todo; [|discriminate]. destruct cur; [discriminate|]. destruct c as [q|z|].
    + destruct (get q (w_pubs w)) as [[t1 g b1]|]; [|injection H as <-; now left]. destruct g; injection H as <-; try (now left).
      eapply PUT; [reflexivity|]. cbn. auto 10.
    + destruct (get z (w_subs w)); injection H as <-; now left.
    + injection H as <-. now left.
  - destruct (get q (w_pubs w)) as [[t1 g b1]|]; [|discriminate]. destruct g; try discriminate. injection H as <-. eapply PUT; [reflexivity|]. cbn. auto 10.
  - destruct (get z (w_subs w)) as [[t1 g r ib k c n got]|]; [|discriminate]. destruct g; try discriminate. destruct ib as [|m ib]; [discriminate|].
    destruct k; [discriminate|]. injection H as <-. now left.
  - destruct (get z (w_subs w)) as [[t1 g r ib k c n got]|]; [|discriminate]. destruct g; try discriminate. destruct k as [[td al]|]; [|discriminate].
    destruct (get q (w_pubs w)); [|discriminate]. destruct (_ && _); [|discriminate]. injection H as <-. now left.
  - destruct (get z (w_subs w)) as [[t1 g r ib k c n got]|]; [|discriminate]. destruct g; try discriminate. destruct k as [[td al]|]; [|discriminate].
    destruct (get q (w_pubs w)); [|discriminate]. destruct (_ && _); [|discriminate]. injection H as <-. now left.
  - destruct (get z (w_subs w)) as [[t1 g r ib k c n got]|]; [|discriminate]. destruct g; try discriminate. destruct k as [[[|] al]|]; try discriminate. injection H as <-. now left.
  - destruct (get q (w_pubs w)) as [[t1 g b1]|]; [|discriminate]. destruct g; try discriminate. destruct (mem q (w_clients w)); [injection H as <-; now left|].
    destruct (w_job w) as [[p'|]|]; try discriminate. destruct (dec q p'); [|discriminate]. destruct b1; [discriminate|]. injection H as <-. now left.
  - destruct (get z (w_subs w)); [|discriminate]. destruct (_ && _); [|discriminate]. injection H as <-. left. rewrite (proj1 (set_sync_fields z _)) in G. exact G.
Qed.

Lemma subs_step w l w' s x' : step w l = Some w' -> get s (w_subs w') = Some x' ->
  (exists x, get s (w_subs w) = Some x /\ s_stage x = s_stage x') \/ s_stage x' = SAsked \/ s_stage x' = SOpen \/
  (l = SubCloses s /\ s_stage x' = SClosed) \/
  (exists p x todo all y, l = JoinFails s p /\ s_stage x' = SDead /\ get s (w_subs w) = Some x /\ s_work x = Some (todo, all) /\ In p todo /\
     get p (w_pubs w) = Some y /\ reachable (p_stage y) = false).
Proof.
  intros H G. set (goal := (exists x, get s (w_subs w) = Some x /\ s_stage x = s_stage x') \/ _).
  assert (SAME : w_subs w' = w_subs w -> goal) by (intros E; rewrite E in G; left; eauto).
  assert (PUT : forall q z u, w_subs w' = put q z (w_subs w) -> get q (w_subs w) = Some u -> s_stage z = s_stage u -> goal).
  { intros q z u E K Z. rewrite E, get_put in G. left. destruct (dec s q) as [->|]; [injection G as <-; eauto|eauto]. }
  assert (NEW : forall q z, w_subs w' = put q z (w_subs w) -> (s = q -> x' = z -> goal) -> goal).
  { intros q z E K. rewrite E, get_put in G. destruct (dec s q) as [->|]; [injection G as <-; auto|left; eauto]. }
  destruct l as [t0|t0|f t0|f t0| |q|z|q m|q|k|q|q| |z| | |q|z|z q|z q|z|q|z]; cbn [step] in H;
    try (injection H as <-; apply SAME; reflexivity).
  - injection H as <-. eapply NEW; [reflexivity|]. intros _ ->. right; left. reflexivity.
  - destruct (get q (w_pubs w)) as [y|]; [|discriminate]. injection H as <-. apply SAME; reflexivity.
  - destruct (get z (w_subs w)) eqn:GZ; [|discriminate]. injection H as <-. eapply NEW; [reflexivity|]. intros -> ->. right; right; right; left. split; reflexivity.
  - destruct (get q (w_pubs w)) as [[t1 g b1]|]; [|discriminate]. destruct g; try discriminate. injection H as <-. cbn in G. rewrite get_map in G.
    destruct (get s (w_subs w)) as [x|] eqn:GX; [|discriminate]. injection G as <-. left. exists x. split; [reflexivity|]. unfold deliver. destruct (mem q (s_chans x)); reflexivity.
  - destruct (get q (w_pubs w)) as [[t1 g b1]|]; [|discriminate]. destruct g; try discriminate. destruct (w_job w) as [[p'|]|]; try discriminate. destruct (dec q p'); [|discriminate]. injection H as <-.
    apply SAME; reflexivity.
  - destruct (w_job w); [discriminate|]. destruct (get k (w_waiting w)) as [r|]; [|discriminate]. unfold execute in H. destruct r as [| |f t0|f t0|].
    + injection H as <-. apply SAME; reflexivity.
    + destruct (get k (w_subs (set_waiting (del k (w_waiting w)) w))) as [x|] eqn:GX; [|discriminate]. cbn in GX. injection H as <-. eapply NEW; [reflexivity|]. intros -> ->.
      destruct (s_stage x) eqn:ST; unfold goal; cbn; [right; right; left; reflexivity|right; right; left; reflexivity|left; exists x; auto|left; exists x; auto].
    + destruct (add_edge _ _ _ _) as [d []]; injection H as <-; apply SAME; reflexivity.
    + destruct (remove_edge _ _ _ _) as [d []]; injection H as <-; apply SAME; reflexivity.
    + injection H as <-. apply SAME; reflexivity.
  - destruct (get q (w_pubs w)) as [[t1 g b1]|]; [|discriminate]. destruct g; try discriminate. destruct (w_job w) as [[p'|]|]; try discriminate. destruct (dec q p'); [|discriminate]. injection H as <-.
    apply SAME; reflexivity.
  - destruct (get q (w_pubs w)) as [[t1 g b1]|]; [|discriminate]. destruct b1; [|discriminate]. destruct (w_job w) as [[p'|]|]; try discriminate. destruct (dec q p'); [|discriminate]. injection H as <-. apply SAME; reflexivity.
  - destruct (w_job w) as [[|c todo cur]|]; try discriminate. destruct todo as [|z todo]; [discriminate|]. destruct cur; [discriminate|].
    destruct (get z (w_subs w)) eqn:GZ; [|discriminate]. injection H as <-. eapply PUT; [reflexivity|exact GZ|reflexivity].
  - destruct (get z (w_subs w)) as [[t1 g r ib k c [|n] got]|] eqn:GZ; try discriminate. destruct (mem z (w_clients w)); [|discriminate]. injection H as <-.
    eapply PUT; [rewrite (proj1 (proj2 (set_sync_fields z _))); reflexivity|exact GZ|reflexivity].
  - destruct (w_job w) as [[|c todo [z|]]|]; try discriminate. injection H as <-. apply SAME; reflexivity.
  - destruct (w_job w) as [[|c todo cur]|]; try discriminate. destruct todo; [|discriminate]. destruct cur; [discriminate|]. destruct c as [q|z|].
    + destruct (get q (w_pubs w)) as [[t1 g b1]|]; [|injection H as <-; apply SAME; reflexivity]. destruct g; injection H as <-; apply SAME; reflexivity.
    + destruct (get z (w_subs w)) eqn:GZ; injection H as <-; [eapply PUT; [reflexivity|exact GZ|reflexivity]|apply SAME; reflexivity].
    + injection H as <-. apply SAME; reflexivity.
  - destruct (get q (w_pubs w)) as [[t1 g b1]|]; [|discriminate]. destruct g; try discriminate. injection H as <-. apply SAME; reflexivity.
  - destruct (get z (w_subs w)) as [[t1 g r ib k c n got]|] eqn:GZ; [|discriminate]. destruct g; try discriminate. destruct ib as [|m ib]; [discriminate|].
    destruct k; [discriminate|]. injection H as <-. eapply PUT; [reflexivity|exact GZ|]. destruct m; reflexivity.
  - destruct (get z (w_subs w)) as [[t1 g r ib k c n got]|] eqn:GZ; [|discriminate]. destruct g; try discriminate. destruct k as [[td al]|]; [|discriminate].
    destruct (get q (w_pubs w)); [|discriminate]. destruct (_ && _); [|discriminate]. injection H as <-. eapply PUT; [reflexivity|exact GZ|reflexivity].
  - destruct (get z (w_subs w)) as [[t1 g r ib k c n got]|] eqn:GZ; [|discriminate]. destruct g; try discriminate. destruct k as [[td al]|]; [|discriminate].
    destruct (get q (w_pubs w)) as [y|] eqn:GY; [|discriminate]. destruct (mem q td && negb (reachable (p_stage y))) eqn:B; [|discriminate]. injection H as <-. eapply NEW; [reflexivity|]. intros -> ->.
    right; right; right; right. apply andb_true_iff in B as [B1 B2]. apply mem_In in B1. apply negb_true_iff in B2.
    exists q, (mkSub t1 SOpen r ib (Some (td, al)) c n got), td, al, y. repeat split; auto.
  - destruct (get z (w_subs w)) as [[t1 g r ib k c n got]|] eqn:GZ; [|discriminate]. destruct g; try discriminate. destruct k as [[[|] al]|]; try discriminate. injection H as <-. eapply PUT; [reflexivity|exact GZ|reflexivity].
  - destruct (get q (w_pubs w)) as [[t1 g b1]|]; [|discriminate]. destruct g; try discriminate. destruct (mem q (w_clients w)); [injection H as <-; apply SAME; reflexivity|].
    destruct (w_job w) as [[p'|]|]; try discriminate. destruct (dec q p'); [|discriminate]. destruct b1; [discriminate|]. injection H as <-. apply SAME; reflexivity.
  - destruct (get z (w_subs w)); [|discriminate]. destruct (_ && _); [|discriminate]. injection H as <-. apply SAME. rewrite (proj1 (proj2 (set_sync_fields z _))). reflexivity.
Qed.

Lemma safe_step w l w' : Good w -> no_gone w -> no_dead w -> pub_closes l = false -> step w l = Some w' -> no_gone w' /\ no_dead w'.
Proof.
  intros GD NG ND PC H. split.
  - intros p y' G. destruct (pubs_step w l w' p y' H G) as [A|[A|[A|[A|[A|[[A _]|[_ A]]]]]]]; [exact (NG p y' A)|congruence|congruence|congruence|congruence| |congruence].
    rewrite A in PC. discriminate.
  - intros s x' G. destruct (subs_step w l w' s x' H G) as [[x [A B]]|[A|[A|[[_ A]|[p [x [td [al [y [_ [_ [GX [W [I [GY R]]]]]]]]]]]]]]]; [rewrite <- B; exact (ND s x A)|congruence|congruence|congruence|].
    destruct (v_work _ (g_view _ GD) s x GX) as [WK _]. destruct (WK td al W) as [W1 _].
    assert (M : mentioned x p) by (right; left; exists td, al; auto).
    destruct (v_known _ (g_view _ GD) s x p GX M) as [z [GZ [SZ JZ]]]. rewrite GY in GZ. injection GZ as <-.
    destruct (c_pub _ (g_ctl _ GD) p y GY) as [_ [_ [P _]]]. pose proof (NG p y GY) as NGY. exfalso. destruct (p_stage y); try discriminate R; intuition congruence.
Qed.

Lemma safe_steps ls : forall w w', Good w -> no_gone w -> no_dead w -> never pub_closes ls -> steps w ls = Some w' -> no_gone w' /\ no_dead w'.
Proof.
  induction ls as [|l ls IH]; intros w w' GD NG ND N H; cbn in H; [injection H as <-; auto|].
  destruct (step w l) as [w1|] eqn:E; [|discriminate]. destruct (safe_step w l w1 GD NG ND (N l (or_introl eq_refl)) E) as [A B].
  apply (IH w1 w' (Good_step _ _ _ GD E)); auto. intros l' I. apply N. now right.
Qed.

Lemma well_steps ls : forall w w', no_raised w -> no_closed w -> never goes_wrong ls -> steps w ls = Some w' -> no_raised w' /\ no_closed w'.
Proof.
  induction ls as [|l ls IH]; intros w w' NR NC N H; cbn in H; [injection H as <-; auto|].
  destruct (step w l) as [w1|] eqn:E; [|discriminate]. pose proof (N l (or_introl eq_refl)) as NL. apply (IH w1 w'); auto; [| |intros l' I; apply N; now right].
  - intros p y' G. destruct (pubs_step w l w1 p y' E G) as [A|[A|[A|[A|[A|[[_ A]|[A _]]]]]]]; try congruence; [exact (NR p y' A)|]. rewrite A in NL. discriminate.
  - intros s x' G. destruct (subs_step w l w1 s x' E G) as [[x [A B]]|[A|[A|[[A _]|[p [x [td [al [y [_ [A _]]]]]]]]]]]; try congruence; [rewrite <- B; exact (NC s x A)|].
    rewrite A in NL. discriminate.
Qed.

(* ---- every call is somewhere ---- *)

Definition Somewhere (w : world) : Prop := forall i, i < w_next w ->
  get i (w_pubs w) <> None \/ get i (w_subs w) <> None \/ get i (w_waiting w) <> None \/ exists a, In (i, a) (w_answers w).

Lemma put_keeps {V} (i k : nat) (v : V) l : get i l <> None -> get i (put k v l) <> None.
Proof. rewrite get_put. destruct (dec i k); [discriminate|auto]. Qed.

Lemma somewhere_step w l w' : Ctl w -> Somewhere w -> step w l = Some w' -> Somewhere w'.
Proof.
  intros C S H.
  assert (KEEP : w_next w' = w_next w -> (forall i, get i (w_pubs w) <> None -> get i (w_pubs w') <> None) -> (forall i, get i (w_subs w) <> None -> get i (w_subs w') <> None) ->
     w_waiting w' = w_waiting w -> w_answers w' = w_answers w -> Somewhere w').
  { intros E P Q W A i L. rewrite E in L. rewrite W, A. destruct (S i L) as [X|[X|[X|X]]]; auto. }
  assert (ASK : forall r w1, w_waiting w1 = w_waiting w -> w_next w1 = w_next w -> w_answers w1 = w_answers w -> 
      (forall i, get i (w_pubs w) <> None -> get i (w_pubs w1) <> None) -> (forall i, get i (w_subs w) <> None -> get i (w_subs w1) <> None) -> Somewhere (ask r w1)).
  { intros r w1 E1 E2 E3 P Q i L. cbn in *. rewrite E2 in *. rewrite E1, E3. destruct (dec i (w_next w)) as [->|N].
    - right; right; left. rewrite get_snoc_new by exact (waiting_new w C). discriminate.
    - rewrite get_snoc_other by exact N. destruct (S i ltac:(lia)) as [X|[X|[X|X]]]; auto. }
  destruct l as [t0|t0|f t0|f t0| |q|z|q m|q|k|q|q| |z| | |q|z|z q|z q|z|q|z]; cbn [step] in H.
  - injection H as <-. apply ASK; auto. intros i. cbn. apply put_keeps.
  - injection H as <-. apply ASK; auto. intros i. cbn. apply put_keeps.
  - injection H as <-. apply ASK; auto.
  - injection H as <-. apply ASK; auto.
  - injection H as <-. apply ASK; auto.
  - destruct (get q (w_pubs w)) as [y|]; [|discriminate]. injection H as <-. apply KEEP; auto. intros i. cbn. apply put_keeps.
  - destruct (get z (w_subs w)) as [y|]; [|discriminate]. injection H as <-. apply KEEP; auto. intros i. cbn. apply put_keeps.
  - destruct (get q (w_pubs w)) as [[t1 g b1]|]; [|discriminate]. destruct g; try discriminate. injection H as <-. apply KEEP; auto. intros i. cbn. rewrite get_map. destruct (get i (w_subs w)); [discriminate|auto].
  - destruct (get q (w_pubs w)) as [[t1 g b1]|]; [|discriminate]. destruct g; try discriminate. destruct (w_job w) as [[p'|]|]; try discriminate. destruct (dec q p'); [|discriminate]. injection H as <-.
    apply KEEP; auto. intros i. cbn. apply put_keeps.
  - destruct (w_job w) eqn:E; [discriminate|]. destruct (get k (w_waiting w)) as [r|] eqn:G; [|discriminate]. destruct (c_wait _ C k r G) as [_ WK].
    assert (TK : forall w1, w_next w1 = w_next w -> (forall i, get i (w_pubs w) <> None -> get i (w_pubs w1) <> None) -> (forall i, get i (w_subs w) <> None -> get i (w_subs w1) <> None) ->
       w_waiting w1 = del k (w_waiting w) -> (forall i a, In (i, a) (w_answers w) -> In (i, a) (w_answers w1)) ->
       (get k (w_pubs w) <> None \/ get k (w_subs w) <> None \/ exists a, In (k, a) (w_answers w1)) -> Somewhere w1).
    { intros w1 E1 P Q W A K i L. rewrite E1 in L. rewrite W. destruct (dec i k) as [->|N].
      - destruct K as [K|[K|K]]; auto.
      - rewrite get_del_neq by exact N. destruct (S i L) as [X|[X|[X|[a X]]]]; eauto. right; right; right; eauto. }
    unfold execute in H. destruct r as [| |f t0|f t0|].
    + injection H as <-. apply TK; auto. destruct WK as [y ->]. left. discriminate.
    + destruct (get k (w_subs (set_waiting (del k (w_waiting w)) w))) as [x|] eqn:GX; [|discriminate]. cbn in GX. injection H as <-. apply TK; auto.
      * intros i. cbn. apply put_keeps.
      * right; left. rewrite GX. discriminate.
    + destruct (add_edge _ _ _ _) as [d []]; injection H as <-; apply TK; auto; try (intros i a I; cbn; apply in_or_app; now left); right; right; eexists; cbn; apply in_or_app; right; left; reflexivity.
    + destruct (remove_edge _ _ _ _) as [d []]; injection H as <-; apply TK; auto; try (intros i a I; cbn; apply in_or_app; now left); right; right; eexists; cbn; apply in_or_app; right; left; reflexivity.
    + injection H as <-; apply TK; auto; [intros i a I; cbn; apply in_or_app; now left|]. right; right; eexists; cbn; apply in_or_app; right; left; reflexivity.
  - destruct (get q (w_pubs w)) as [[t1 g b1]|]; [|discriminate]. destruct g; try discriminate. destruct (w_job w) as [[p'|]|]; try discriminate. destruct (dec q p'); [|discriminate]. injection H as <-.
    apply KEEP; auto. intros i. cbn. apply put_keeps.
  - destruct (get q (w_pubs w)) as [[t1 g b1]|]; [|discriminate]. destruct b1; [|discriminate]. destruct (w_job w) as [[p'|]|]; try discriminate. destruct (dec q p'); [|discriminate]. injection H as <-. apply KEEP; auto.
  - destruct (w_job w) as [[|c todo cur]|]; try discriminate. destruct todo as [|z todo]; [discriminate|]. destruct cur; [discriminate|].
    destruct (get z (w_subs w)) eqn:GZ; [|discriminate]. injection H as <-. apply KEEP; auto. intros i. cbn. apply put_keeps.
  - destruct (get z (w_subs w)) as [[t1 g r ib k c [|n] got]|] eqn:GZ; try discriminate. destruct (mem z (w_clients w)); [|discriminate]. injection H as <-.
    match goal with |- Somewhere (set_sync z ?v) => destruct (set_sync_fields z v) as [F1 [F2 [F3 [F4 [F5 [F6 F7]]]]]] end.
    apply KEEP; [exact F3|rewrite F1; auto|rewrite F2; intros i; cbn; apply put_keeps|exact F6|exact F7].
  - destruct (w_job w) as [[|c todo [z|]]|]; try discriminate. injection H as <-. apply KEEP; auto.
  - destruct (w_job w) as [[|c todo cur]|]; try discriminate. destruct todo; [|discriminate]. destruct cur; [discriminate|]. destruct c as [q|z|].
    + destruct (get q (w_pubs w)) as [[t1 g b1]|]; [|injection H as <-; apply KEEP; auto]. destruct g; injection H as <-; apply KEEP; auto. intros i. cbn. apply put_keeps.
    + destruct (get z (w_subs w)) eqn:GZ; injection H as <-; apply KEEP; auto. intros i. cbn. apply put_keeps.
    + injection H as <-. apply KEEP; auto.
  - destruct (get q (w_pubs w)) as [[t1 g b1]|]; [|discriminate]. destruct g; try discriminate. injection H as <-. apply KEEP; auto. intros i. cbn. apply put_keeps.
  - destruct (get z (w_subs w)) as [[t1 g r ib k c n got]|] eqn:GZ; [|discriminate]. destruct g; try discriminate. destruct ib as [|m ib]; [discriminate|].
    destruct k; [discriminate|]. injection H as <-. apply KEEP; auto. intros i. cbn. apply put_keeps.
  - destruct (get z (w_subs w)) as [[t1 g r ib k c n got]|] eqn:GZ; [|discriminate]. destruct g; try discriminate. destruct k as [[td al]|]; [|discriminate].
    destruct (get q (w_pubs w)); [|discriminate]. destruct (_ && _); [|discriminate]. injection H as <-. apply KEEP; auto. intros i. cbn. apply put_keeps.
  - destruct (get z (w_subs w)) as [[t1 g r ib k c n got]|] eqn:GZ; [|discriminate]. destruct g; try discriminate. destruct k as [[td al]|]; [|discriminate].
    destruct (get q (w_pubs w)); [|discriminate]. destruct (_ && _); [|discriminate]. injection H as <-. apply KEEP; auto. intros i. cbn. apply put_keeps.
  - destruct (get z (w_subs w)) as [[t1 g r ib k c n got]|] eqn:GZ; [|discriminate]. destruct g; try discriminate. destruct k as [[[|] al]|]; try discriminate. injection H as <-. apply KEEP; auto. intros i. cbn. apply put_keeps.
  - destruct (get q (w_pubs w)) as [[t1 g b1]|]; [|discriminate]. destruct g; try discriminate. destruct (mem q (w_clients w)); [injection H as <-; apply KEEP; auto|].
    destruct (w_job w) as [[p'|]|]; try discriminate. destruct (dec q p'); [|discriminate]. destruct b1; [discriminate|]. injection H as <-. apply KEEP; auto.
  - destruct (get z (w_subs w)); [|discriminate]. destruct (_ && _); [|discriminate]. injection H as <-.
    match goal with |- Somewhere (set_sync z ?v) => destruct (set_sync_fields z v) as [F1 [F2 [F3 [F4 [F5 [F6 F7]]]]]] end.
    apply KEEP; [exact F3|rewrite F1; auto|rewrite F2; auto|exact F6|exact F7].
Qed.

Lemma somewhere_steps ls : forall w w', Good w -> Somewhere w -> steps w ls = Some w' -> Somewhere w'.
Proof.
  induction ls as [|l ls IH]; intros w w' GD S H; cbn in H; [injection H as <-; exact S|].
  destruct (step w l) as [w1|] eqn:E; [|discriminate]. eapply IH; [exact (Good_step _ _ _ GD E)|exact (somewhere_step _ _ _ (g_ctl _ GD) S E)|exact H].
Qed.

(* ---- what has ended stays so ---- *)

Definition ended (x : sub) : Prop := (s_stage x = SDead \/ s_stage x = SClosed) /\ s_chans x = [].

Lemma ended_step w l w' s x : step w l = Some w' -> Ctl w -> get s (w_subs w) = Some x -> ended x ->
  exists x', get s (w_subs w') = Some x' /\ ended x' /\ s_ready x' = s_ready x /\ s_got x' = s_got x.
Proof.
  intros H C G [D CH]. set (goal := exists x', _).
  assert (SAME : w_subs w' = w_subs w -> goal) by (intros E; exists x; rewrite E; repeat split; auto).
  assert (PUT : forall q z u, w_subs w' = put q z (w_subs w) -> get q (w_subs w) = Some u -> (s = q -> ended z /\ s_ready z = s_ready u /\ s_got z = s_got u) -> goal).
  { intros q z u E K Z. unfold goal. rewrite E, get_put. destruct (dec s q) as [->|]; [rewrite G in K; injection K as <-; exists z; destruct (Z eq_refl) as [Z1 [Z2 Z3]]; auto|exists x; repeat split; auto]. }
  assert (OPEN : forall q u, get q (w_subs w) = Some u -> s_stage u = SOpen -> s = q -> False).
  { intros q u K O ->. rewrite G in K. injection K as <-. destruct D; congruence. }
  destruct l as [t0|t0|f t0|f t0| |q|z|q m|q|k|q|q| |z| | |q|z|z q|z q|z|q|z]; cbn [step] in H;
    try (injection H as <-; apply SAME; reflexivity).
  - injection H as <-. exists x. cbn. rewrite get_put_neq; [repeat split; auto|]. intros ->. rewrite (sub_new w C) in G. discriminate.
  - destruct (get q (w_pubs w)) as [y|]; [|discriminate]. injection H as <-. apply SAME; reflexivity.
  - destruct (get z (w_subs w)) as [u|] eqn:GZ; [|discriminate]. injection H as <-. eapply PUT; [reflexivity|exact GZ|]. intros ->. cbn. repeat split; auto.
  - destruct (get q (w_pubs w)) as [[t1 g b1]|]; [|discriminate]. destruct g; try discriminate. injection H as <-. exists x. cbn. rewrite get_map, G. cbn. unfold deliver. rewrite CH. cbn. repeat split; auto.
  - destruct (get q (w_pubs w)) as [[t1 g b1]|]; [|discriminate]. destruct g; try discriminate. destruct (w_job w) as [[p'|]|]; try discriminate. destruct (dec q p'); [|discriminate]. injection H as <-.
    apply SAME; reflexivity.
  - destruct (w_job w); [discriminate|]. destruct (get k (w_waiting w)) as [r|]; [|discriminate]. unfold execute in H. destruct r as [| |f t0|f t0|].
    + injection H as <-. apply SAME; reflexivity.
    + destruct (get k (w_subs (set_waiting (del k (w_waiting w)) w))) as [u|] eqn:GX; [|discriminate]. cbn in GX. injection H as <-. eapply PUT; [reflexivity|exact GX|]. intros ->.
      rewrite G in GX. injection GX as <-. cbn. split; [|auto]. split; cbn; [|exact CH]. destruct D as [-> | ->]; auto.
    + destruct (add_edge _ _ _ _) as [d []]; injection H as <-; apply SAME; reflexivity.
    + destruct (remove_edge _ _ _ _) as [d []]; injection H as <-; apply SAME; reflexivity.
    + injection H as <-. apply SAME; reflexivity.
  - destruct (get q (w_pubs w)) as [[t1 g b1]|]; [|discriminate]. destruct g; try discriminate. destruct (w_job w) as [[p'|]|]; try discriminate. destruct (dec q p'); [|discriminate]. injection H as <-.
    apply SAME; reflexivity.
  - destruct (get q (w_pubs w)) as [[t1 g b1]|]; [|discriminate]. destruct b1; [|discriminate]. destruct (w_job w) as [[p'|]|]; try discriminate. destruct (dec q p'); [|discriminate]. injection H as <-. apply SAME; reflexivity.
  - destruct (w_job w) as [[|c todo cur]|]; try discriminate. destruct todo as [|z todo]; [discriminate|]. destruct cur; [discriminate|].
    destruct (get z (w_subs w)) as [u|] eqn:GZ; [|discriminate]. injection H as <-. eapply PUT; [reflexivity|exact GZ|]. intros ->. rewrite G in GZ. injection GZ as <-. cbn. repeat split; auto.
  - destruct (get z (w_subs w)) as [[t1 g r ib k c [|n] got]|] eqn:GZ; try discriminate. destruct (mem z (w_clients w)); [|discriminate]. injection H as <-.
    eapply PUT; [rewrite (proj1 (proj2 (set_sync_fields z _))); reflexivity|exact GZ|]. intros ->. rewrite G in GZ. injection GZ as ->. cbn in *. repeat split; auto.
  - destruct (w_job w) as [[|c todo [z|]]|]; try discriminate. injection H as <-. apply SAME; reflexivity.
  - destruct (w_job w) as [[|c todo cur]|]; try discriminate. destruct todo; [|discriminate]. destruct cur; [discriminate|]. destruct c as [q|z|].
    + destruct (get q (w_pubs w)) as [[t1 g b1]|]; [|injection H as <-; apply SAME; reflexivity]. destruct g; injection H as <-; apply SAME; reflexivity.
    + destruct (get z (w_subs w)) as [u|] eqn:GZ; injection H as <-; [|apply SAME; reflexivity]. eapply PUT; [reflexivity|exact GZ|]. intros ->. rewrite G in GZ. injection GZ as <-. cbn. repeat split; auto.
    + injection H as <-. apply SAME; reflexivity.
  - destruct (get q (w_pubs w)) as [[t1 g b1]|]; [|discriminate]. destruct g; try discriminate. injection H as <-. apply SAME; reflexivity.
  - destruct (get z (w_subs w)) as [[t1 g r ib k c n got]|] eqn:GZ; [|discriminate]. destruct g; try discriminate. destruct ib as [|m ib]; [discriminate|].
    destruct k; [discriminate|]. injection H as <-. eapply PUT; [reflexivity|exact GZ|]. intros ->. destruct (OPEN _ _ GZ eq_refl eq_refl).
  - destruct (get z (w_subs w)) as [[t1 g r ib k c n got]|] eqn:GZ; [|discriminate]. destruct g; try discriminate. destruct k as [[td al]|]; [|discriminate].
    destruct (get q (w_pubs w)); [|discriminate]. destruct (_ && _); [|discriminate]. injection H as <-. eapply PUT; [reflexivity|exact GZ|]. intros ->. destruct (OPEN _ _ GZ eq_refl eq_refl).
  - destruct (get z (w_subs w)) as [[t1 g r ib k c n got]|] eqn:GZ; [|discriminate]. destruct g; try discriminate. destruct k as [[td al]|]; [|discriminate].
    destruct (get q (w_pubs w)); [|discriminate]. destruct (_ && _); [|discriminate]. injection H as <-. eapply PUT; [reflexivity|exact GZ|]. intros ->. destruct (OPEN _ _ GZ eq_refl eq_refl).
  - destruct (get z (w_subs w)) as [[t1 g r ib k c n got]|] eqn:GZ; [|discriminate]. destruct g; try discriminate. destruct k as [[[|] al]|]; try discriminate. injection H as <-.
    eapply PUT; [reflexivity|exact GZ|]. intros ->. destruct (OPEN _ _ GZ eq_refl eq_refl).
  - destruct (get q (w_pubs w)) as [[t1 g b1]|]; [|discriminate]. destruct g; try discriminate. destruct (mem q (w_clients w)); [injection H as <-; apply SAME; reflexivity|].
    destruct (w_job w) as [[p'|]|]; try discriminate. destruct (dec q p'); [|discriminate]. destruct b1; [discriminate|]. injection H as <-. apply SAME; reflexivity.
  - destruct (get z (w_subs w)); [|discriminate]. destruct (_ && _); [|discriminate]. injection H as <-. apply SAME. rewrite (proj1 (proj2 (set_sync_fields z _))). reflexivity.
Qed.

Lemma ended_steps ls : forall w w' s x, Good w -> steps w ls = Some w' -> get s (w_subs w) = Some x -> ended x ->
  exists x', get s (w_subs w') = Some x' /\ ended x' /\ s_ready x' = s_ready x /\ s_got x' = s_got x.
Proof.
  induction ls as [|l ls IH]; intros w w' s x GD H G D; cbn in H; [injection H as <-; exists x; auto|].
  destruct (step w l) as [w1|] eqn:E; [|discriminate]. destruct (ended_step w l w1 s x E (g_ctl _ GD) G D) as [x1 [G1 [D1 [R1 O1]]]].
  destruct (IH w1 w' s x1 (Good_step _ _ _ GD E) H G1 D1) as [x2 [G2 [D2 [R2 O2]]]]. exists x2. repeat split; try apply D2; congruence.
Qed.

(* The lock is held for a publisher that has raised. *)
Definition stuck (p : nat) (w : world) : Prop := w_job w = Some (JAddress p) /\ exists y, get p (w_pubs w) = Some y /\ p_stage y = PRaised /\ p_sent y = false.

Lemma stuck_step p w l w' i : Ctl w -> stuck p w -> l <> PubCloses p -> step w l = Some w' -> waits w i -> stuck p w' /\ waits w' i.
Proof.
  intros C [J [y [G [R SN]]]] NL H W. unfold stuck, waits in *.
  assert (SAME : w_job w' = w_job w -> (get p (w_pubs w') = Some y) -> w_waiting w' = w_waiting w -> stuck p w' /\ waits w' i).
  { intros E1 E2 E3. unfold stuck, waits. rewrite E1, E2, E3. split; [split; [exact J|]|exact W]. exists y. auto. }
  assert (ASK : forall r w1, w_job w1 = w_job w -> get p (w_pubs w1) = Some y -> w_waiting w1 = w_waiting w -> stuck p (ask r w1) /\ waits (ask r w1) i).
  { intros r w1 E1 E2 E3. unfold stuck, waits. cbn. rewrite E1, E2, E3. split; [split; [exact J|]; exists y; auto|].
    destruct (get i (w_waiting w)) as [r'|] eqn:GW; [|congruence]. clear - GW. induction (w_waiting w) as [|[k v] l IH]; cbn in *; [discriminate|]. destruct (dec i k); [discriminate|auto]. }
  destruct l as [t0|t0|f t0|f t0| |q|z|q m|q|k|q|q| |z| | |q|z|z q|z q|z|q|z]; cbn [step] in H; rewrite ?J in H; try discriminate.
  - injection H as <-. apply ASK; auto. cbn. rewrite get_put_neq; [exact G|]. intros ->. rewrite (pub_new w C) in G. discriminate.
  - injection H as <-. apply ASK; auto.
  - injection H as <-. apply ASK; auto.
  - injection H as <-. apply ASK; auto.
  - injection H as <-. apply ASK; auto.
  - destruct (get q (w_pubs w)) as [u|] eqn:GQ; [|discriminate]. injection H as <-. apply SAME; auto. cbn. rewrite get_put_neq; [exact G|]. congruence.
  - destruct (get z (w_subs w)); [|discriminate]. injection H as <-. apply SAME; auto.
  - destruct (get q (w_pubs w)) as [[t1 g b1]|]; [|discriminate]. destruct g; try discriminate. injection H as <-. apply SAME; auto.
  - destruct (get q (w_pubs w)) as [[t1 g b1]|] eqn:GQ; [|discriminate]. destruct g; try discriminate. destruct (dec q p) as [->|]; [|discriminate]. rewrite G in GQ. injection GQ as ->. discriminate.
  - destruct (get q (w_pubs w)) as [[t1 g b1]|] eqn:GQ; [|discriminate]. destruct g; try discriminate. destruct (dec q p) as [->|]; [|discriminate]. rewrite G in GQ. injection GQ as ->. discriminate.
  - destruct (get q (w_pubs w)) as [[t1 g b1]|] eqn:GQ; [|discriminate]. destruct b1; [|discriminate]. destruct (dec q p) as [->|]; [|discriminate]. rewrite G in GQ. injection GQ as ->. discriminate.
  - destruct (get z (w_subs w)) as [[t1 g r ib k c [|n] got]|] eqn:GZ; try discriminate. destruct (mem z (w_clients w)); [|discriminate]. injection H as <-.
    apply SAME; unfold set_sync; cbn [w_job put_sub set_subs]; rewrite J; auto.
  - destruct (get q (w_pubs w)) as [[t1 g b1]|] eqn:GQ; [|discriminate]. destruct g; try discriminate. injection H as <-. apply SAME; auto. cbn. rewrite get_put. destruct (dec p q) as [->|]; [|exact G].
    rewrite G in GQ. injection GQ as ->. discriminate.
  - destruct (get z (w_subs w)) as [[t1 g r ib k c n got]|] eqn:GZ; [|discriminate]. destruct g; try discriminate. destruct ib as [|m ib]; [discriminate|].
    destruct k; [discriminate|]. injection H as <-. apply SAME; auto.
  - destruct (get z (w_subs w)) as [[t1 g r ib k c n got]|] eqn:GZ; [|discriminate]. destruct g; try discriminate. destruct k as [[td al]|]; [|discriminate].
    destruct (get q (w_pubs w)); [|discriminate]. destruct (_ && _); [|discriminate]. injection H as <-. apply SAME; auto.
  - destruct (get z (w_subs w)) as [[t1 g r ib k c n got]|] eqn:GZ; [|discriminate]. destruct g; try discriminate. destruct k as [[td al]|]; [|discriminate].
    destruct (get q (w_pubs w)); [|discriminate]. destruct (_ && _); [|discriminate]. injection H as <-. apply SAME; auto.
  - destruct (get z (w_subs w)) as [[t1 g r ib k c n got]|] eqn:GZ; [|discriminate]. destruct g; try discriminate. destruct k as [[[|] al]|]; try discriminate. injection H as <-. apply SAME; auto.
  - destruct (get q (w_pubs w)) as [[t1 g b1]|] eqn:GQ; [|discriminate]. destruct g; try discriminate. destruct (mem q (w_clients w)); [injection H as <-; apply SAME; auto|].
    destruct (dec q p) as [->|]; [|discriminate]. rewrite G in GQ. injection GQ as ->. discriminate.
  - destruct (get z (w_subs w)); [|discriminate]. destruct (_ && _); [|discriminate]. injection H as <-. apply SAME; unfold set_sync; cbn [w_job set_clients]; rewrite J; auto.
Qed.

Lemma stuck_steps ls : forall p w w' i, Good w -> stuck p w -> ~ In (PubCloses p) ls -> steps w ls = Some w' -> waits w i -> waits w' i.
Proof.
  induction ls as [|l ls IH]; intros p w w' i GD S N H W; cbn in H; [injection H as <-; exact W|].
  destruct (step w l) as [w1|] eqn:E; [|discriminate].
  destruct (stuck_step p w l w1 i (g_ctl _ GD) S ltac:(intros ->; apply N; now left) E W) as [S1 W1].
  apply (IH p w1 w' i (Good_step _ _ _ GD E) S1); auto. intros I. apply N. now right.
Qed.
