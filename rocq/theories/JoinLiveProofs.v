(* What is received, and that every call returns. *)

From Coq Require Import String List Arith Bool Lia Relations.
From Verif Require Import Dict DagModel DagSpec DagProofs JoinModel JoinSpec JoinProofs JoinCtlProofs JoinViewProofs JoinSyncProofs.
Import ListNotations.

Lemma steps_app a b w : steps w (a ++ b) = match steps w a with Some w' => steps w' b | None => None end.
Proof. revert w. induction a as [|l a IH]; intros w; cbn; [reflexivity|]. destruct (step w l); [apply IH|reflexivity]. Qed.

Lemma never_forallb ls : never times_out ls -> forallb (fun l => negb (timeout l)) ls = true.
Proof.
  intros N. apply forallb_forall. intros l I. specialize (N l I). destruct l; try reflexivity. discriminate.
Qed.

(* ---- one message ---- *)

Lemma send_heard w p m w' s x : step w (Send p m) = Some w' -> get s (w_subs w) = Some x ->
  heard w' s = heard w s ++ (if mem p (s_chans x) then [(p, m)] else []).
Proof.
  intros H G. cbn [step] in H. destruct (get p (w_pubs w)) as [[t g b]|]; [|discriminate]. destruct g; try discriminate. injection H as <-.
  unfold heard. cbn. rewrite get_map, G. cbn. unfold deliver. destruct (mem p (s_chans x)); cbn; [reflexivity|now rewrite app_nil_r].
Qed.

Lemma heard_put_sub w q y y' s : get q (w_subs w) = Some y -> s_got y' = s_got y -> heard (put_sub q y' w) s = heard w s.
Proof. intros G E. unfold heard. cbn. rewrite get_put. destruct (dec s q) as [->|]; [|reflexivity]. now rewrite G, E. Qed.

Lemma heard_subs w w' s : w_subs w' = w_subs w -> heard w' s = heard w s.
Proof. unfold heard. intros ->. reflexivity. Qed.

Lemma heard_set_sync w q s : heard (set_sync q w) s = heard w s.
Proof. apply heard_subs. apply set_sync_fields. Qed.

Definition sends (l : label) : bool := match l with Send _ _ => true | _ => false end.

(* Every other step leaves what was heard. *)
Lemma step_heard w l w' s x : Ctl w -> step w l = Some w' -> sends l = false -> get s (w_subs w) = Some x -> heard w' s = heard w s.
Proof.
  intros C H NS GX.
  destruct l as [t|t|f t|f t| |p|z|p m|p|i|p|p| |z| | |p|z|z p|z p|z|p|z]; try discriminate NS; cbn [step] in H;
    try (injection H as <-; reflexivity).
  - injection H as <-. unfold heard. cbn. rewrite get_put_neq; [reflexivity|]. intros ->. rewrite (sub_new w C) in GX. discriminate.
  - destruct (get p (w_pubs w)); [|discriminate]. injection H as <-. reflexivity.
  - destruct (get z (w_subs w)) eqn:G; [|discriminate]. injection H as <-. eapply heard_put_sub; eauto.
  - destruct (get p (w_pubs w)) as [[t g b]|]; [|discriminate]. destruct g; try discriminate. destruct (w_job w) as [[p'|]|]; try discriminate. destruct (dec p p'); [|discriminate]. injection H as <-. reflexivity.
  - destruct (w_job w); [discriminate|]. destruct (get i (w_waiting w)) as [r|]; [|discriminate]. unfold execute in H. destruct r as [| |f t|f t|].
    + injection H as <-. reflexivity.
    + destruct (get i (w_subs (set_waiting (del i (w_waiting w)) w))) as [y|] eqn:G; [|discriminate]. injection H as <-. cbn in G.
      unfold heard. cbn. rewrite get_put. destruct (dec s i) as [->|]; [|reflexivity]. now rewrite G.
    + destruct (add_edge _ _ _ _) as [d []]; injection H as <-; reflexivity.
    + destruct (remove_edge _ _ _ _) as [d []]; injection H as <-; reflexivity.
    + injection H as <-. reflexivity.
  - destruct (get p (w_pubs w)) as [[t g b]|]; [|discriminate]. destruct g; try discriminate. destruct (w_job w) as [[p'|]|]; try discriminate. destruct (dec p p'); [|discriminate]. injection H as <-. reflexivity.
  - destruct (get p (w_pubs w)) as [[t g b]|]; [|discriminate]. destruct b; [|discriminate]. destruct (w_job w) as [[p'|]|]; try discriminate. destruct (dec p p'); [|discriminate]. injection H as <-. reflexivity.
  - destruct (w_job w) as [[|c todo cur]|]; try discriminate. destruct todo as [|z todo]; [discriminate|]. destruct cur; [discriminate|].
    destruct (get z (w_subs w)) as [y|] eqn:G; [|discriminate]. injection H as <-. unfold heard. cbn. rewrite get_put. destruct (dec s z) as [->|]; [|reflexivity]. now rewrite G.
  - destruct (get z (w_subs w)) as [[t g r ib k c [|n] got]|] eqn:G; try discriminate. destruct (mem z (w_clients w)); [|discriminate]. injection H as <-.
    rewrite heard_set_sync. eapply heard_put_sub; eauto.
  - destruct (w_job w) as [[|c todo [z|]]|]; try discriminate. injection H as <-. reflexivity.
  - destruct (w_job w) as [[|c todo cur]|]; try discriminate. destruct todo; [|discriminate]. destruct cur; [discriminate|]. destruct c as [p|z|].
    + destruct (get p (w_pubs w)) as [[t g b]|]; [|injection H as <-; reflexivity]. destruct g; injection H as <-; reflexivity.
    + destruct (get z (w_subs w)) as [y|] eqn:G; [|injection H as <-; reflexivity]. injection H as <-. unfold heard. cbn. rewrite get_put. destruct (dec s z) as [->|]; [|reflexivity]. now rewrite G.
    + injection H as <-. reflexivity.
  - destruct (get p (w_pubs w)) as [[t g b]|]; [|discriminate]. destruct g; try discriminate. injection H as <-. reflexivity.
  - destruct (get z (w_subs w)) as [[t g r ib k c n got]|] eqn:G; [|discriminate]. destruct g; try discriminate. destruct ib as [|m ib]; [discriminate|].
    destruct k; [discriminate|]. injection H as <-. destruct m; eapply heard_put_sub; eauto.
  - destruct (get z (w_subs w)) as [[t g r ib k c n got]|] eqn:G; [|discriminate]. destruct g; try discriminate. destruct k as [[td al]|]; [|discriminate].
    destruct (get p (w_pubs w)); [|discriminate]. destruct (_ && _); [|discriminate]. injection H as <-. eapply heard_put_sub; eauto.
  - destruct (get z (w_subs w)) as [[t g r ib k c n got]|] eqn:G; [|discriminate]. destruct g; try discriminate. destruct k as [[td al]|]; [|discriminate].
    destruct (get p (w_pubs w)); [|discriminate]. destruct (_ && _); [|discriminate]. injection H as <-. eapply heard_put_sub; eauto.
  - destruct (get z (w_subs w)) as [[t g r ib k c n got]|] eqn:G; [|discriminate]. destruct g; try discriminate. destruct k as [[[|] al]|]; try discriminate. injection H as <-. eapply heard_put_sub; eauto.
  - destruct (get p (w_pubs w)) as [[t g b]|]; [|discriminate]. destruct g; try discriminate. destruct (mem p (w_clients w)); [injection H as <-; reflexivity|].
    destruct (w_job w) as [[p'|]|]; try discriminate. destruct (dec p p'); [|discriminate]. destruct b; [discriminate|]. injection H as <-. reflexivity.
  - destruct (get z (w_subs w)) as [y|] eqn:G; [|discriminate]. destruct (_ && _); [|discriminate]. injection H as <-. rewrite heard_set_sync. reflexivity.
Qed.

(* ---- a connection that lasts ---- *)

(** Everything that says whether the subscriber has a channel to [p] says [b]. *)
Definition all_say (b : Prop) (p : nat) (x : sub) : Prop :=
  (In p (s_chans x) <-> b) /\
  (forall todo all, s_work x = Some (todo, all) -> (In p all <-> b)) /\
  forall ps, In (Update ps) (s_inbox x) -> (In p ps <-> b).

Definition lasting (p s : nat) (t u : topic) (b : bool) (w : world) : Prop :=
  publisher w p t /\ subscriber w s u /\ (b = true <-> connected w t u).

Lemma all_say_step w l w' p s t u b x x' : Good w -> lasting p s t u b w -> lasting p s t u b w' -> step w l = Some w' ->
  get s (w_subs w) = Some x -> get s (w_subs w') = Some x' -> all_say (b = true) p x -> all_say (b = true) p x'.
Proof.
  intros GD [[pb GP] [[x0 [G0 [TX [RX OX]]]] CN]] [_ [[x0' [G0' [_ [_ OX']]]] _]] H GX GX' A. rewrite GX in G0. injection G0 as <-. rewrite GX' in G0'. injection G0' as <-.
  pose proof (g_ctl _ GD) as C.
  assert (SAME : w_subs w' = w_subs w -> all_say (b = true) p x') by (intros E; rewrite E, GX in GX'; injection GX' as <-; exact A).
  assert (PUT : forall z y, w_subs w' = put z y (w_subs w) -> (s = z -> all_say (b = true) p y) -> all_say (b = true) p x').
  { intros z y E K. rewrite E, get_put in GX'. destruct (dec s z) as [<-|]; [injection GX' as <-; now apply K|]. rewrite GX in GX'. injection GX' as <-. exact A. }
  destruct A as [A1 [A2 A3]].
  destruct l as [t0|t0|f t0|f t0| |q|z|q m|q|i|q|q| |z| | |q|z|z q|z q|z|q|z]; cbn [step] in H;
    try (injection H as <-; apply SAME; reflexivity).
  - injection H as <-. eapply PUT; [reflexivity|]. intros ->. rewrite (sub_new w C) in GX. discriminate.
  - destruct (get q (w_pubs w)); [|discriminate]. injection H as <-. apply SAME; reflexivity.
  - destruct (get z (w_subs w)) as [y|] eqn:G; [|discriminate]. injection H as <-. cbn in GX'. rewrite get_put in GX'. destruct (dec s z) as [->|]; [injection GX' as <-; discriminate|].
    rewrite GX in GX'. injection GX' as <-. exact (conj A1 (conj A2 A3)).
  - destruct (get q (w_pubs w)) as [[t1 g b1]|]; [|discriminate]. destruct g; try discriminate. injection H as <-. cbn in GX'. rewrite get_map, GX in GX'. injection GX' as <-.
    unfold deliver, all_say. destruct (mem q (s_chans x)); cbn; auto.
  - destruct (get q (w_pubs w)) as [[t1 g b1]|]; [|discriminate]. destruct g; try discriminate. destruct (w_job w) as [[p'|]|]; try discriminate. destruct (dec q p'); [|discriminate]. injection H as <-. apply SAME; reflexivity.
  - destruct (w_job w); [discriminate|]. destruct (get i (w_waiting w)) as [r|] eqn:GW; [|discriminate]. unfold execute in H. destruct r as [| |f t0|f t0|].
    + injection H as <-. apply SAME; reflexivity.
    + destruct (get i (w_subs (set_waiting (del i (w_waiting w)) w))) as [y|] eqn:G; [|discriminate]. injection H as <-. cbn in G.
      eapply PUT; [reflexivity|]. intros ->. rewrite GX in G. injection G as <-. unfold all_say. cbn. auto.
    + destruct (add_edge _ _ _ _) as [d []]; injection H as <-; apply SAME; reflexivity.
    + destruct (remove_edge _ _ _ _) as [d []]; injection H as <-; apply SAME; reflexivity.
    + injection H as <-. apply SAME; reflexivity.
  - destruct (get q (w_pubs w)) as [[t1 g b1]|]; [|discriminate]. destruct g; try discriminate. destruct (w_job w) as [[p'|]|]; try discriminate. destruct (dec q p'); [|discriminate]. injection H as <-. apply SAME; reflexivity.
  - destruct (get q (w_pubs w)) as [[t1 g b1]|]; [|discriminate]. destruct b1; [|discriminate]. destruct (w_job w) as [[p'|]|]; try discriminate. destruct (dec q p'); [|discriminate]. injection H as <-. apply SAME; reflexivity.
  - destruct (w_job w) as [[|c todo cur]|] eqn:E; try discriminate. destruct todo as [|z todo]; [discriminate|]. destruct cur; [discriminate|].
    destruct (get z (w_subs w)) as [y|] eqn:G; [|discriminate]. injection H as <-. eapply PUT; [reflexivity|]. intros <-. rewrite GX in G. injection G as <-.
    unfold all_say. cbn. split; [exact A1|]. split; [exact A2|]. intros ps I. apply in_app_or in I as [I|[I|[]]]; [auto|]. injection I as <-.
    rewrite (upstream_pubs_spec (s_topic x) w p (c_dag _ C)), TX, CN. destruct (c_pub _ C p _ GP) as [_ [_ [P _]]]. cbn in P. destruct P as [_ [_ [PC _]]]. split.
    + intros [_ [y [GY Y]]]. rewrite GP in GY. injection GY as <-. exact Y.
    + intros Y. split; [exact PC|]. exists (mkPub t PReady pb). auto.
  - destruct (get z (w_subs w)) as [[t1 g r ib k c [|n] got]|] eqn:G; try discriminate. destruct (mem z (w_clients w)); [|discriminate]. injection H as <-.
    eapply PUT; [rewrite (proj1 (proj2 (set_sync_fields z _))); reflexivity|]. intros <-. rewrite GX in G. injection G as ->. exact (conj A1 (conj A2 A3)).
  - destruct (w_job w) as [[|c todo [z|]]|]; try discriminate. injection H as <-. apply SAME; reflexivity.
  - destruct (w_job w) as [[|c todo cur]|]; try discriminate. destruct todo; [|discriminate]. destruct cur; [discriminate|]. destruct c as [q|z|].
    + destruct (get q (w_pubs w)) as [[t1 g b1]|]; [|injection H as <-; apply SAME; reflexivity]. destruct g; injection H as <-; apply SAME; reflexivity.
    + destruct (get z (w_subs w)) as [y|] eqn:G; [|injection H as <-; apply SAME; reflexivity]. injection H as <-. eapply PUT; [reflexivity|]. intros <-. rewrite GX in G. injection G as <-.
      unfold all_say. cbn. split; [exact A1|]. split; [exact A2|]. intros ps I. apply in_app_or in I as [I|[I|[]]]; [auto|discriminate].
    + injection H as <-. apply SAME; reflexivity.
  - destruct (get q (w_pubs w)) as [[t1 g b1]|]; [|discriminate]. destruct g; try discriminate. injection H as <-. apply SAME; reflexivity.
  - destruct (get z (w_subs w)) as [[t1 g r ib k c n got]|] eqn:G; [|discriminate]. destruct g; try discriminate. destruct ib as [|m ib]; [discriminate|].
    destruct k; [discriminate|]. injection H as <-. eapply PUT; [reflexivity|]. intros <-. rewrite GX in G. injection G as ->. cbn in A1, A2, A3.
    destruct m; unfold all_say; cbn; (split; [exact A1|]; split; [|intros q I; apply A3; now right]); [|discriminate].
    intros td al X. injection X as <- <-. apply A3. now left.
  - destruct (get z (w_subs w)) as [[t1 g r ib k c n got]|] eqn:G; [|discriminate]. destruct g; try discriminate. destruct k as [[td al]|]; [|discriminate].
    destruct (get q (w_pubs w)); [|discriminate]. destruct (mem q td && _) eqn:B; [|discriminate]. injection H as <-. eapply PUT; [reflexivity|]. intros <-. rewrite GX in G. injection G as ->.
    apply andb_true_iff in B as [B _]. apply mem_In in B.
    destruct (v_work _ (g_view _ GD) s _ GX) as [W _]. destruct (W td al eq_refl) as [W1 _]. cbn in A1, A2, A3. unfold all_say; cbn. specialize (A2 td al eq_refl).
    split; [|split; [|exact A3]].
    + rewrite In_sadd. split; [intros [->|I]; [apply A2, W1, B|now apply A1]|]. intros X. right. now apply A1.
    + intros td' al' X. injection X as <- <-. exact A2.
  - destruct (get z (w_subs w)) as [[t1 g r ib k c n got]|] eqn:G; [|discriminate]. destruct g; try discriminate. destruct k as [[td al]|]; [|discriminate].
    destruct (get q (w_pubs w)); [|discriminate]. destruct (_ && _); [|discriminate]. injection H as <-. cbn in GX'. rewrite get_put in GX'. destruct (dec s z) as [->|N]; [injection GX' as <-; discriminate|].
    rewrite GX in GX'. injection GX' as <-. exact (conj A1 (conj A2 A3)).
  - destruct (get z (w_subs w)) as [[t1 g r ib k c n got]|] eqn:G; [|discriminate]. destruct g; try discriminate. destruct k as [[[|] al]|]; try discriminate. injection H as <-.
    eapply PUT; [reflexivity|]. intros <-. rewrite GX in G. injection G as ->. cbn in A1, A2, A3. specialize (A2 [] al eq_refl). unfold all_say; cbn.
    split; [|split; [discriminate|exact A3]]. rewrite filter_In, mem_In. tauto.
  - destruct (get q (w_pubs w)) as [[t1 g b1]|]; [|discriminate]. destruct g; try discriminate. destruct (mem q (w_clients w)); [injection H as <-; apply SAME; reflexivity|].
    destruct (w_job w) as [[p'|]|]; try discriminate. destruct (dec q p'); [|discriminate]. destruct b1; [discriminate|]. injection H as <-. apply SAME; reflexivity.
  - destruct (get z (w_subs w)) as [y|] eqn:G; [|discriminate]. destruct (_ && _); [|discriminate]. injection H as <-. apply SAME. rewrite (proj1 (proj2 (set_sync_fields z _))). reflexivity.
Qed.

Lemma chans_settled w p t s x : Good w -> w_job w = None -> publisher w p t -> get s (w_subs w) = Some x -> s_stage x = SOpen ->
  s_inbox x = [] -> s_work x = None -> (In p (s_chans x) <-> connected w t (s_topic x)).
Proof.
  intros GD E [b GP] G O I K. destruct (c_pub _ (g_ctl _ GD) p _ GP) as [_ [_ [P _]]]. cbn in P. destruct P as [_ [_ [PC PA]]].
  assert (NT : ~ in_todo w s) by (intros [c [td [cu [X _]]]]; congruence).
  pose proof (v_view _ (g_view _ GD) s x G O NT p _ PC GP) as V. unfold view, applied in V. rewrite I, K in V. exact V.
Qed.

Lemma all_say_settled w p t s u b x : Good w -> w_job w = None -> caught_up w s -> lasting p s t u b w -> get s (w_subs w) = Some x -> all_say (b = true) p x.
Proof.
  intros GD E [x1 [G1 [I K]]] [PB [[x0 [G0 [TX [RX OX]]]] CN]] G. rewrite G in G0, G1. injection G0 as <-. injection G1 as <-.
  unfold all_say. rewrite I, K. split; [|split; [discriminate|intros ps []]]. rewrite CN, <- TX. now apply (chans_settled w p t s x).
Qed.

Lemma all_say_sync w p t s u b x : Good w -> Sync w -> ~ changing w -> lasting p s t u b w -> get s (w_subs w) = Some x -> all_say (b = true) p x.
Proof.
  intros GD Y NC [PB [[x0 [G0 [TX [RX OX]]]] CN]] G. rewrite G in G0. injection G0 as <-.
  assert (PV : pending x = 1 -> In p (view x) <-> b = true).
  { intros Z. destruct (y_count _ Y s x G OX) as [[X _]|[_ X]]; [lia|]. destruct PB as [pb GP].
    destruct (c_pub _ (g_ctl _ GD) p _ GP) as [_ [_ [P _]]]. cbn in P. destruct P as [_ [_ [PC PA]]].
    rewrite CN, <- TX. exact (v_view _ (g_view _ GD) s x G OX (awaited_not_todo _ _ GD X) p _ PC GP). }
  assert (LE : pending x <= 1) by (destruct (y_count _ Y s x G OX) as [[X _]|[X _]]; lia).
  split; [rewrite CN, <- TX; now apply (chans_right w p t s x)|]. split.
  - intros td al W. rewrite (pending_view w s x GD G OX LE td al W) in PV. apply PV. unfold pending in *. rewrite W in *. lia.
  - intros ps I. apply In_updates in I. unfold pending, view, applied in *. destruct (updates (s_inbox x)) as [|v [|v' us]]; [destruct I| |cbn in LE; lia].
    destruct I as [<-|[]]. cbn in *. apply PV. lia.
Qed.

Lemma from_app p a b : from p (a ++ b) = from p a ++ from p b.
Proof. unfold from. now rewrite filter_app, map_app. Qed.

Lemma throughout_now P w ls : throughout P w ls -> P w.
Proof. destruct ls; cbn; tauto. Qed.

Lemma lasting_heard ls : forall w w' p s t u b x, Good w -> throughout (lasting p s t u b) w ls -> steps w ls = Some w' -> get s (w_subs w) = Some x -> all_say (b = true) p x ->
  from p (heard w' s) = from p (heard w s) ++ (if b then sent_by p ls else []).
Proof.
  induction ls as [|l ls IH]; intros w w' p s t u b x GD T H G A; cbn in H.
  { injection H as <-. destruct b; now rewrite app_nil_r. }
  destruct (step w l) as [w1|] eqn:E; [|discriminate]. destruct T as [T0 T1]. specialize (T1 w1 E).
  pose proof (throughout_now _ _ _ T1) as T2. pose proof T2 as [_ [[x1 [G1 _]] _]].
  assert (A1 : all_say (b = true) p x1) by (eapply all_say_step; eauto).
  rewrite (IH w1 w' p s t u b x1 (Good_step _ _ _ GD E) T1 H G1 A1).
  destruct (sends l) eqn:SL.
  - destruct l; try discriminate SL. rewrite (send_heard w p0 m w1 s x E G), from_app, <- app_assoc. f_equal. cbn [sent_by flat_map].
    destruct (mem p0 (s_chans x)) eqn:M.
    + apply mem_In in M. unfold from at 1. cbn. destruct (Nat.eqb_spec p0 p) as [->|N]; cbn; [|now destruct b].
      destruct A as [A _]. apply A in M. rewrite M. reflexivity.
    + unfold from at 1. cbn. destruct (Nat.eqb_spec p0 p) as [->|N]; [|now destruct b]. destruct b; [|reflexivity].
      exfalso. apply mem_false in M. apply M. destruct A as [A _]. now apply A.
  - rewrite (step_heard w l w1 s x (g_ctl _ GD) E SL G). f_equal. destruct b; [|reflexivity]. destruct l; try reflexivity. discriminate.
Qed.

(* ---- a later query ---- *)

Lemma answers_set_sync s w : w_answers (set_sync s w) = w_answers w.
Proof. apply set_sync_fields. Qed.
Lemma waiting_set_sync s w : w_waiting (set_sync s w) = w_waiting w.
Proof. apply set_sync_fields. Qed.
Lemma changing_set_sync s w : changing (set_sync s w) -> changing w.
Proof. intros [todo [cur H]]. destruct (set_sync_job _ _ _ _ _ H) as [[X _]|[X _]]; exists todo; eauto. Qed.

Lemma quiet_step w l w' i : Ctl w -> step w l = Some w' -> calls_change l = false -> no_change_open w ->
  (In (i, AGraph) (w_answers w) -> ~ changing w) ->
  no_change_open w' /\ (In (i, AGraph) (w_answers w') -> ~ changing w').
Proof.
  intros C H NC O A.
  assert (SAME : w_waiting w' = w_waiting w -> w_answers w' = w_answers w -> (changing w' -> changing w) -> no_change_open w' /\ (In (i, AGraph) (w_answers w') -> ~ changing w')).
  { unfold no_change_open. intros -> -> K. split; [exact O|]. intros I X. exact (A I (K X)). }
  assert (ASK : forall r w1, w_waiting w1 = w_waiting w -> w_next w1 = w_next w -> w_answers w1 = w_answers w -> w_job w1 = w_job w -> w' = ask r w1 ->
            match r with RConnect _ _ | RDisconnect _ _ => False | _ => True end -> no_change_open w' /\ (In (i, AGraph) (w_answers w') -> ~ changing w')).
  { intros r w1 E1 E2 E3 E4 -> R. split.
    - intros k r' G. cbn in G. rewrite E1, E2 in G. destruct (dec k (w_next w)) as [->|N].
      + rewrite get_snoc_new in G by exact (waiting_new w C). injection G as <-. exact R.
      + rewrite get_snoc_other in G by exact N. exact (O k r' G).
    - unfold changing. cbn. rewrite E3, E4. exact A. }
  destruct l as [t0|t0|f t0|f t0| |q|z|q m|q|k|q|q| |z| | |q|z|z q|z q|z|q|z]; try discriminate NC; cbn [step] in H.
  - injection H as <-. refine (ASK _ _ _ _ _ _ eq_refl I); reflexivity.
  - injection H as <-. refine (ASK _ _ _ _ _ _ eq_refl I); reflexivity.
  - injection H as <-. refine (ASK _ _ _ _ _ _ eq_refl I); reflexivity.
  - destruct (get q (w_pubs w)); [|discriminate]. injection H as <-. apply SAME; auto.
  - destruct (get z (w_subs w)); [|discriminate]. injection H as <-. apply SAME; auto.
  - destruct (get q (w_pubs w)) as [[t1 g b1]|]; [|discriminate]. destruct g; try discriminate. injection H as <-. apply SAME; auto.
  - destruct (get q (w_pubs w)) as [[t1 g b1]|]; [|discriminate]. destruct g; try discriminate. destruct (w_job w) as [[p'|]|] eqn:E; try discriminate. destruct (dec q p'); [|discriminate]. injection H as <-. apply SAME; auto.
  - destruct (w_job w) eqn:E; [discriminate|]. destruct (get k (w_waiting w)) as [r|] eqn:GW; [|discriminate]. pose proof (O k r GW) as OK.
    assert (DEL : forall k' r', get k' (del k (w_waiting w)) = Some r' -> match r' with RConnect _ _ | RDisconnect _ _ => False | _ => True end).
    { intros k' r' G. rewrite get_del in G. destruct (dec k' k); [discriminate|]. exact (O k' r' G). }
    unfold execute in H. destruct r as [| |f t0|f t0|]; try contradiction.
    + injection H as <-. split; [exact DEL|]. intros _ [td [cu X]]. discriminate.
    + destruct (get k (w_subs (set_waiting (del k (w_waiting w)) w))) as [y|] eqn:G; [|discriminate]. injection H as <-. split; [exact DEL|]. intros _ [td [cu X]]. discriminate.
    + injection H as <-. split; [exact DEL|]. intros _ [td [cu X]]. cbn in X. congruence.
  - destruct (get q (w_pubs w)) as [[t1 g b1]|]; [|discriminate]. destruct g; try discriminate. destruct (w_job w) as [[p'|]|] eqn:E; try discriminate. destruct (dec q p'); [|discriminate]. injection H as <-. apply SAME; auto.
  - destruct (get q (w_pubs w)) as [[t1 g b1]|]; [|discriminate]. destruct b1; [|discriminate]. destruct (w_job w) as [[p'|]|] eqn:E; try discriminate. destruct (dec q p'); [|discriminate]. injection H as <-. apply SAME; auto.
    intros [td [cu X]]. discriminate.
  - destruct (w_job w) as [[|c todo cur]|] eqn:E; try discriminate. destruct todo as [|z todo]; [discriminate|]. destruct cur; [discriminate|].
    destruct (get z (w_subs w)) as [y|] eqn:G; [|discriminate]. injection H as <-. apply SAME; auto. intros [td [cu X]]. cbn in X. injection X as -> <- <-. exists (z :: todo), None. exact E.
  - destruct (get z (w_subs w)) as [[t1 g r ib kk c [|n] got]|] eqn:G; try discriminate. destruct (mem z (w_clients w)); [|discriminate]. injection H as <-.
    apply SAME; [now rewrite waiting_set_sync|now rewrite answers_set_sync|]. intros X. exact (changing_set_sync _ _ X).
  - destruct (w_job w) as [[|c todo [z|]]|] eqn:E; try discriminate. injection H as <-. apply SAME; auto. intros [td [cu X]]. cbn in X. injection X as -> <- <-. exists todo, (Some z). exact E.
  - destruct (w_job w) as [[|c todo cur]|] eqn:E; try discriminate. destruct todo; [|discriminate]. destruct cur; [discriminate|].
    assert (NN : ~ changing (set_job None w)) by (intros [td [cu X]]; discriminate). destruct c as [q|z|].
    + destruct (get q (w_pubs w)) as [[t1 g b1]|]; [|injection H as <-; apply SAME; auto; intros X; destruct (NN X)]. destruct g; injection H as <-; apply SAME; auto; intros X; destruct (NN X).
    + destruct (get z (w_subs w)) as [y|] eqn:G; injection H as <-; apply SAME; auto; intros X; destruct (NN X).
    + injection H as <-. apply SAME; auto. intros X; destruct (NN X).
  - destruct (get q (w_pubs w)) as [[t1 g b1]|]; [|discriminate]. destruct g; try discriminate. injection H as <-. apply SAME; auto.
  - destruct (get z (w_subs w)) as [[t1 g r ib kk c n got]|] eqn:G; [|discriminate]. destruct g; try discriminate. destruct ib as [|m ib]; [discriminate|].
    destruct kk; [discriminate|]. injection H as <-. apply SAME; auto.
  - destruct (get z (w_subs w)) as [[t1 g r ib kk c n got]|] eqn:G; [|discriminate]. destruct g; try discriminate. destruct kk as [[td al]|]; [|discriminate].
    destruct (get q (w_pubs w)); [|discriminate]. destruct (_ && _); [|discriminate]. injection H as <-. apply SAME; auto.
  - destruct (get z (w_subs w)) as [[t1 g r ib kk c n got]|] eqn:G; [|discriminate]. destruct g; try discriminate. destruct kk as [[td al]|]; [|discriminate].
    destruct (get q (w_pubs w)); [|discriminate]. destruct (_ && _); [|discriminate]. injection H as <-. apply SAME; auto.
  - destruct (get z (w_subs w)) as [[t1 g r ib kk c n got]|] eqn:G; [|discriminate]. destruct g; try discriminate. destruct kk as [[[|] al]|]; try discriminate. injection H as <-. apply SAME; auto.
  - destruct (get q (w_pubs w)) as [[t1 g b1]|]; [|discriminate]. destruct g; try discriminate. destruct (mem q (w_clients w)); [injection H as <-; apply SAME; auto|].
    destruct (w_job w) as [[p'|]|] eqn:E; try discriminate. destruct (dec q p'); [|discriminate]. destruct b1; [discriminate|]. injection H as <-. apply SAME; auto.
    intros [td [cu X]]. discriminate.
  - destruct (get z (w_subs w)) as [y|] eqn:G; [|discriminate]. destruct (_ && _); [|discriminate]. injection H as <-.
    apply SAME; [now rewrite waiting_set_sync|now rewrite answers_set_sync|]. intros X. exact (changing_set_sync _ _ X).
Qed.

Lemma quiet_steps ls : forall w w' i, Good w -> steps w ls = Some w' -> never calls_change ls -> no_change_open w ->
  (In (i, AGraph) (w_answers w) -> ~ changing w) -> In (i, AGraph) (w_answers w') -> ~ changing w'.
Proof.
  induction ls as [|l ls IH]; intros w w' i GD H NC O A; cbn in H; [injection H as <-; exact A|].
  destruct (step w l) as [w1|] eqn:E; [|discriminate].
  destruct (quiet_step w l w1 i (g_ctl _ GD) E (NC l (or_introl eq_refl)) O A) as [O1 A1].
  apply (IH w1 w' i (Good_step _ _ _ GD E) H); auto. intros l' I. apply NC. now right.
Qed.
