(* Proofs about the event logs (EventLogModel.v). *)

From Coq Require Import List Arith Lia.
From Verif Require Import Dict EventLogModel EventLogSpec.
Import ListNotations.

Lemma cap_pos : 0 < queue_cap.
Proof. unfold queue_cap; lia. Qed.
#[global] Opaque queue_cap.

Section Lists.
Context {B : Type}.
Implicit Types l : list B.

Lemma lastn_short n l : length l <= n -> lastn n l = l.
Proof. intros H. unfold lastn. now replace (length l - n) with 0 by lia. Qed.

Lemma lastn_length n l : length (lastn n l) = Nat.min n (length l).
Proof. unfold lastn. rewrite skipn_length. lia. Qed.

Lemma skipn_snoc n l x : n <= length l -> skipn n (l ++ [x]) = skipn n l ++ [x].
Proof. intros H. rewrite skipn_app. now replace (n - length l) with 0 by lia. Qed.

Lemma lastn_snoc_short n l x : length l < n -> lastn n (l ++ [x]) = lastn n l ++ [x].
Proof. intros H. rewrite !lastn_short; [reflexivity|lia|rewrite app_length; cbn; lia]. Qed.

Lemma tl_skipn n l : tl (skipn n l) = skipn (S n) l.
Proof.
  revert l; induction n as [|n IH]; intros l; [destruct l; reflexivity|].
  destruct l as [|a l]; [reflexivity|]. cbn [skipn]. rewrite IH. destruct l; reflexivity.
Qed.

Lemma lastn_snoc_full n l x : 0 < n -> n <= length l -> lastn n (l ++ [x]) = tl (lastn n l) ++ [x].
Proof.
  intros P H. unfold lastn. rewrite app_length; cbn [length].
  rewrite tl_skipn. rewrite skipn_snoc by lia. f_equal. f_equal. lia.
Qed.

Lemma skipn_skipn' m n l : skipn m (skipn n l) = skipn (n + m) l.
Proof.
  revert l; induction n as [|n IH]; intros l; [reflexivity|].
  destruct l as [|a l]; [now rewrite !skipn_nil|]. cbn. apply IH.
Qed.

Lemma lastn_lastn_snoc n l x : lastn n (lastn n l ++ [x]) = lastn n (l ++ [x]).
Proof.
  destruct (Nat.le_gt_cases n (length l)) as [H|H].
  - unfold lastn. rewrite !app_length, skipn_length; cbn [length].
    destruct n as [|n].
    + rewrite !skipn_all2; [reflexivity|rewrite app_length; cbn; lia..|].
      rewrite app_length, skipn_length; cbn; lia.
    + rewrite !skipn_snoc by (try rewrite skipn_length; lia).
      rewrite skipn_skipn'. f_equal. f_equal. lia.
  - now rewrite (lastn_short n l) by lia.
Qed.

Lemma In_skipn n (x : B) l : In x (skipn n l) -> In x l.
Proof.
  revert l; induction n as [|n IH]; intros l; [auto|]. destruct l as [|a l]; [auto|].
  cbn; auto.
Qed.

Lemma In_lastn n (x : B) l : In x (lastn n l) -> In x l.
Proof. apply In_skipn. Qed.
End Lists.

Section Proofs.
Context {A : Type}.
Implicit Types l : list (event A).

Lemma appended_app (o1 o2 : list (log_op A)) : appended (o1 ++ o2) = appended o1 ++ appended o2.
Proof. apply flat_map_app. Qed.

Lemma numbered_length (l : list A) : length (numbered l) = length l.
Proof. unfold numbered. rewrite combine_length, seq_length. lia. Qed.

Lemma combine_snoc {B C} (l1 : list B) (l2 : list C) b c :
  length l1 = length l2 -> combine (l1 ++ [b]) (l2 ++ [c]) = combine l1 l2 ++ [(b, c)].
Proof.
  revert l2; induction l1 as [|x l1 IH]; intros [|y l2] H; cbn in *; try discriminate; auto.
  f_equal. apply IH. lia.
Qed.

Lemma numbered_snoc (l : list A) a : numbered (l ++ [a]) = numbered l ++ [(S (length l), a)].
Proof.
  unfold numbered. rewrite app_length; cbn [length]. rewrite Nat.add_1_r, seq_S.
  cbn [plus]. apply combine_snoc. now rewrite seq_length.
Qed.

Lemma numbered_bound (l : list A) e : In e (numbered l) -> 1 <= fst e <= length l.
Proof.
  destruct e as [n a]; unfold numbered; intros I. apply in_combine_l in I.
  apply in_seq in I. cbn; lia.
Qed.

Lemma trim_lastn n l : trim n l = lastn n l.
Proof.
  unfold trim, lastn. destruct (n <? length l) eqn:E; [reflexivity|].
  apply Nat.ltb_ge in E. now replace (length l - n) with 0 by lia.
Qed.

Lemma queue_event_lastn l (e : event A) : queue_event (lastn queue_cap l) e = lastn queue_cap (l ++ [e]).
Proof.
  pose proof cap_pos. unfold queue_event. rewrite lastn_length.
  destruct (Nat.le_gt_cases queue_cap (length l)) as [H1|H1].
  - rewrite Nat.min_l by lia. rewrite Nat.ltb_irrefl. now rewrite lastn_snoc_full by lia.
  - rewrite Nat.min_r by lia. rewrite (proj2 (Nat.ltb_lt _ _)) by lia.
    now rewrite lastn_snoc_short by lia.
Qed.

Lemma fold_queue l : fold_left queue_event l [] = lastn queue_cap l.
Proof.
  induction l as [|e l IH] using rev_ind; [reflexivity|].
  rewrite fold_left_app; cbn. rewrite IH. apply queue_event_lastn.
Qed.

Lemma after_ops_snoc limit ops (op : log_op A) :
  after_ops limit (ops ++ [op]) = log_step (after_ops limit ops) op.
Proof. unfold after_ops, log_run. now rewrite fold_left_app. Qed.

Lemma log_contents limit (ops : list (log_op A)) :
  l_limit (after_ops limit ops) = limit /\
  l_seq (after_ops limit ops) = length (appended ops) /\
  l_events (after_ops limit ops) = lastn limit (numbered (appended ops)).
Proof.
  induction ops as [|op ops IH] using rev_ind; [auto|].
  rewrite after_ops_snoc, appended_app. destruct IH as [H1 [H2 H3]].
  destruct op as [a|id n|id|id]; cbn [appended flat_map app]; rewrite ?app_nil_r.
  - cbn [log_step]. unfold append; cbn [l_limit l_seq l_events]. split; [assumption|].
    split; [rewrite H2, app_length; cbn; lia|].
    rewrite H1, H2, H3, trim_lastn, numbered_snoc. apply lastn_lastn_snoc.
  - cbn; auto.
  - cbn; auto.
  - cbn [log_step]. unfold send. destruct (get id (l_subs (after_ops limit ops))) as [s|]; [|auto].
    destruct (q_queue s); cbn; auto.
Qed.

Lemma increasing_app l1 l2 :
  increasing (l1 ++ l2) <->
  increasing l1 /\ increasing l2 /\ (forall e e', In e l1 -> In e' l2 -> fst e < fst e').
Proof.
  induction l1 as [|e l1 IH]; cbn; [intuition|].
  rewrite IH. split.
  - intros [H [H1 [H2 H3]]]. split; [|split].
    + split; [intros; apply H; apply in_app_iff; auto|assumption].
    + assumption.
    + intros x y [<-|Hx] Hy; [apply H; apply in_app_iff; auto|auto].
  - intros [[H H1] [H2 H3]]. split.
    + intros x Hx. apply in_app_iff in Hx as [Hx|Hx]; auto.
    + repeat split; auto.
Qed.

Lemma increasing_filter p l : increasing l -> increasing (filter p l).
Proof.
  induction l as [|e l IH]; cbn; [auto|]. intros [H1 H2].
  destruct (p e); cbn; [|auto]. split; [|auto]. intros e' I. apply filter_In in I as [I _]. auto.
Qed.

Lemma increasing_skipn n l : increasing l -> increasing (skipn n l).
Proof.
  revert l; induction n as [|n IH]; intros l; [auto|]. destruct l as [|e l]; [auto|].
  cbn. intros [_ H]. auto.
Qed.

Lemma increasing_numbered (l : list A) : increasing (numbered l).
Proof.
  induction l as [|a l IH] using rev_ind; [exact I|].
  rewrite numbered_snoc. apply increasing_app. split; [assumption|split; [cbn; split; auto; intros e' []|]].
  intros e e' He [<-|[]]. apply numbered_bound in He. cbn; lia.
Qed.

Lemma increasing_ext l1 : forall l2, increasing l1 -> increasing l2 ->
  (forall e, In e l1 <-> In e l2) -> l1 = l2.
Proof.
  induction l1 as [|a l1 IH]; intros [|b l2] I1 I2 E.
  - reflexivity.
  - exfalso. apply (proj2 (E b)). now left.
  - exfalso. apply (proj1 (E a)). now left.
  - destruct I1 as [H1 I1], I2 as [H2 I2].
    assert (a = b).
    { destruct (proj1 (E a) (or_introl eq_refl)) as [->|J1]; [reflexivity|].
      destruct (proj2 (E b) (or_introl eq_refl)) as [->|J2]; [reflexivity|].
      apply H1 in J2. apply H2 in J1. lia. }
    subst b. f_equal. apply IH; auto. intros e. split; intros J.
    + destruct (proj1 (E e) (or_intror J)) as [<-|K]; [|assumption].
      apply H1 in J. lia.
    + destruct (proj2 (E e) (or_intror J)) as [<-|K]; [|assumption].
      apply H2 in J. lia.
Qed.

Section Sub.
Variables (limit id after : nat) (before : list (log_op A)).

Definition st (later : list (log_op A)) : log A :=
  after_ops limit (before ++ Subscribe id after :: later).
Definition D (later : list (log_op A)) := due limit before after later.

Definition overrun (later : list (log_op A)) (e : event A) : Prop :=
  exists p1 a p2 r, later = p1 ++ Append a :: p2 /\
    waiting (st p1) id = e :: r /\ length (e :: r) = queue_cap.

Lemma appended_sub (later : list (log_op A)) :
  appended (before ++ Subscribe id after :: later) = appended (before ++ later).
Proof. rewrite !appended_app. reflexivity. Qed.

Lemma st_snoc later op : st (later ++ [op]) = log_step (st later) op.
Proof.
  unfold st. rewrite app_comm_cons, app_assoc. apply after_ops_snoc.
Qed.

Lemma D_append later a :
  D (later ++ [Append a]) = D later ++ [(S (length (appended (before ++ later))), a)].
Proof.
  unfold D, due. rewrite app_assoc, appended_app. cbn [appended flat_map app].
  rewrite numbered_snoc, skipn_snoc, app_assoc; [reflexivity|].
  rewrite numbered_length, appended_app, app_length. lia.
Qed.

Lemma D_other later op : (forall a, op <> Append a) -> D (later ++ [op]) = D later.
Proof.
  intros N. unfold D, due. rewrite app_assoc, appended_app.
  destruct op as [a|? ?|?|?]; cbn [appended flat_map]; rewrite ?app_nil_r; try reflexivity.
  exfalso; now apply (N a).
Qed.

Lemma D_In later e : In e (D later) -> In e (numbered (appended (before ++ later))).
Proof.
  unfold D, due. intros I. apply in_app_iff in I as [I|I]; [|now apply In_skipn in I].
  apply In_lastn in I. apply filter_In in I as [I _]. apply In_lastn in I.
  rewrite appended_app. clear -I. induction (appended later) as [|a l IH] using rev_ind.
  - now rewrite app_nil_r.
  - rewrite app_assoc, numbered_snoc. apply in_app_iff; auto.
Qed.

Lemma D_increasing later : increasing (D later).
Proof.
  induction later as [|op later IH] using rev_ind.
  - unfold D, due. rewrite app_nil_r. rewrite skipn_all2 by (rewrite numbered_length; lia).
    rewrite app_nil_r. apply increasing_skipn, increasing_filter, increasing_skipn, increasing_numbered.
  - destruct op as [a|? ?|?|?]; [|rewrite D_other by (intros; discriminate); assumption..].
    rewrite D_append. apply increasing_app. split; [assumption|].
    split; [cbn; split; auto; intros e' []|].
    intros e e' He [<-|[]]. apply D_In, numbered_bound in He. cbn; lia.
Qed.

Record SubInv (later : list (log_op A)) : Prop := {
  s_sub : exists s, get id (l_subs (st later)) = Some s;
  s_suffix : exists d, D later = d ++ waiting (st later) id /\
                       (forall e, In e (written (st later) id) -> In e d);
  s_cap : length (waiting (st later) id) <= queue_cap;
  s_inc : increasing (written (st later) id ++ waiting (st later) id);
  s_lost : forall e, In e (D later) ->
      In e (written (st later) id ++ waiting (st later) id) \/ overrun later e
}.

Lemma overrun_snoc later op e : overrun later e -> overrun (later ++ [op]) e.
Proof.
  intros [l1 [a [l2 [r [-> [W L]]]]]]. exists l1, a, (l2 ++ [op]), r.
  rewrite <- app_assoc; cbn. auto.
Qed.

(** Operations that leave the subscriber alone. *)
Lemma SubInv_same later op :
  (forall a, op <> Append a) ->
  get id (l_subs (st (later ++ [op]))) = get id (l_subs (st later)) ->
  SubInv later -> SubInv (later ++ [op]).
Proof.
  intros N E [S1 S2 S5 S3 S4].
  assert (W : written (st (later ++ [op])) id = written (st later) id) by (unfold written; now rewrite E).
  assert (Q : waiting (st (later ++ [op])) id = waiting (st later) id) by (unfold waiting; now rewrite E).
  constructor; rewrite ?W, ?Q, ?E, ?(D_other later op N); auto.
  intros e I. destruct (S4 e I) as [H|H]; [auto|]. right. now apply overrun_snoc.
Qed.

Lemma get_map (f : subscriber A -> subscriber A) (d : list (nat * subscriber A)) k :
  get k (map (fun p => (fst p, f (snd p))) d) = option_map f (get k d).
Proof.
  induction d as [|[k' v] d IH]; cbn; [reflexivity|]. destruct (dec k k'); [reflexivity|assumption].
Qed.

Lemma SubInv_all later : stays id later -> SubInv later.
Proof.
  induction later as [|op later IH] using rev_ind; intros ST.
  - pose proof (log_contents limit before) as [_ [_ C]].
    assert (E : get id (l_subs (st [])) =
      Some (mkSub (lastn queue_cap (events_after after (after_ops limit before))) [])).
    { unfold st. rewrite after_ops_snoc; cbn [log_step]. unfold subscribe; cbn [l_subs].
      rewrite get_put_eq, fold_queue. reflexivity. }
    assert (DE : D [] = lastn queue_cap (events_after after (after_ops limit before))).
    { unfold D, due. rewrite app_nil_r. rewrite skipn_all2 by (rewrite numbered_length; lia).
      rewrite app_nil_r. unfold events_after. now rewrite C. }
    assert (W : written (st []) id = []) by (unfold written; now rewrite E).
    assert (Q : waiting (st []) id = D []) by (unfold waiting; now rewrite E, DE).
    constructor; rewrite ?W, ?Q.
    + eauto.
    + exists []. split; [reflexivity|intros e []].
    + rewrite DE, lastn_length. lia.
    + apply D_increasing.
    + auto.
  - assert (IH' : SubInv later).
    { apply IH. intros o I. apply ST. apply in_app_iff; auto. }
    assert (Io : In op (later ++ [op])) by (apply in_app_iff; right; now left).
    specialize (ST op Io) as [N1 N2].
    destruct op as [a|id' n|id'|id'].
    + (* a new event *)
      destruct IH' as [[s G] [d [DQ WD]] CAP INC LOST].
      pose proof (log_contents limit (before ++ Subscribe id after :: later)) as [_ [SQ _]].
      rewrite appended_sub in SQ. fold (st later) in SQ.
      set (n := S (length (appended (before ++ later)))) in *.
      assert (E : get id (l_subs (st (later ++ [Append a]))) = Some (offer (n, a) s)).
      { rewrite st_snoc; cbn [log_step]. unfold append; cbn [l_subs].
        rewrite get_map, G, SQ. reflexivity. }
      assert (W0 : written (st later) id = q_out s) by (unfold written; now rewrite G).
      assert (Q0 : waiting (st later) id = q_queue s) by (unfold waiting; now rewrite G).
      assert (W : written (st (later ++ [Append a])) id = q_out s) by (unfold written; now rewrite E).
      assert (Q : waiting (st (later ++ [Append a])) id = queue_event (q_queue s) (n, a))
        by (unfold waiting; now rewrite E).
      rewrite W0, Q0 in *.
      assert (Bd : forall e, In e (q_out s ++ q_queue s) -> fst e < n).
      { intros e I. assert (J : In e (D later)).
        { rewrite DQ. apply in_app_iff. apply in_app_iff in I as [I|I]; auto. }
        apply D_In, numbered_bound in J. unfold n; lia. }
      pose proof (D_append later a) as DA. fold n in DA.
      constructor; rewrite ?W, ?Q.
      * eauto.
      * rewrite DA, DQ. unfold queue_event. destruct (length (q_queue s) <? queue_cap) eqn:L.
        -- exists d. split; [now rewrite app_assoc|assumption].
        -- destruct (q_queue s) as [|x r]; cbn [tl].
           ++ exists d. split; [now rewrite app_nil_r|assumption].
           ++ exists (d ++ [x]). split; [now rewrite <- !app_assoc|].
              intros e I. apply in_app_iff; auto.
      * pose proof cap_pos. unfold queue_event. destruct (length (q_queue s) <? queue_cap) eqn:L.
        -- apply Nat.ltb_lt in L. rewrite app_length; cbn; lia.
        -- apply Nat.ltb_ge in L. rewrite app_length. destruct (q_queue s); cbn in *; lia.
      * unfold queue_event.
        assert (INC' : increasing (q_out s ++ q_queue s ++ [(n, a)])).
        { rewrite app_assoc. apply increasing_app. split; [assumption|].
          split; [cbn; split; auto; intros e' []|].
          intros e e' He [<-|[]]. cbn. auto. }
        destruct (length (q_queue s) <? queue_cap); [assumption|].
        destruct (q_queue s) as [|x r]; cbn [tl]; [assumption|].
        apply increasing_app in INC' as [I1 [[_ I2] I3]].
        apply increasing_app; split; [assumption|split; [assumption|]].
        intros e e' He He'. apply I3; [assumption|now right].
      * intros e I. rewrite DA in I. apply in_app_iff in I as [I|[<-|[]]].
        -- destruct (LOST e I) as [H|H]; [|right; now apply overrun_snoc].
           unfold queue_event. destruct (length (q_queue s) <? queue_cap) eqn:L.
           ++ left. rewrite app_assoc. apply in_app_iff; auto.
           ++ apply Nat.ltb_ge in L.
              apply in_app_iff in H as [H|H]; [left; apply in_app_iff; auto|].
              destruct (q_queue s) as [|x r] eqn:Qs; [destruct H|].
              destruct H as [<-|H].
              ** right. exists later, a, [], r. split; [reflexivity|].
                 rewrite Q0. split; [reflexivity|].
                 lia.
              ** left. apply in_app_iff; right. cbn [tl]. apply in_app_iff; auto.
        -- left. apply in_app_iff; right. unfold queue_event.
           destruct (length (q_queue s) <? queue_cap); apply in_app_iff; right; now left.
    + apply SubInv_same; [intros; discriminate| |assumption].
      rewrite st_snoc; cbn [log_step]. unfold subscribe; cbn [l_subs].
      apply get_put_neq. intros ->. now apply (N2 n).
    + apply SubInv_same; [intros; discriminate| |assumption].
      rewrite st_snoc; cbn [log_step]. unfold unsubscribe; cbn [l_subs].
      apply get_del_neq. intros ->. now apply N1.
    + destruct (Nat.eq_dec id' id) as [->|Ne].
      * destruct IH' as [[s G] [d [DQ WD]] CAP INC LOST].
        assert (W0 : written (st later) id = q_out s) by (unfold written; now rewrite G).
        assert (Q0 : waiting (st later) id = q_queue s) by (unfold waiting; now rewrite G).
        rewrite W0, Q0 in *.
        destruct (q_queue s) as [|e r] eqn:Qs.
        { assert (Same : st (later ++ [Send id]) = st later).
          { rewrite st_snoc; cbn [log_step]. unfold send. now rewrite G, Qs. }
          constructor; rewrite ?Same, ?W0, ?Q0, ?(D_other later (Send id)) by (intros; discriminate); eauto.
          intros e I. destruct (LOST e I); [auto|right; now apply overrun_snoc]. }
        assert (E : get id (l_subs (st (later ++ [Send id]))) = Some (mkSub r (q_out s ++ [e]))).
        { rewrite st_snoc; cbn [log_step]. unfold send. rewrite G, Qs; cbn [l_subs].
          apply get_put_eq. }
        assert (W : written (st (later ++ [Send id])) id = q_out s ++ [e]) by (unfold written; now rewrite E).
        assert (Q : waiting (st (later ++ [Send id])) id = r) by (unfold waiting; now rewrite E).
        constructor; rewrite ?W, ?Q, ?(D_other later (Send id)) by (intros; discriminate).
        -- eauto.
        -- exists (d ++ [e]). split; [rewrite <- app_assoc; exact DQ|].
           intros x I. apply in_app_iff. apply in_app_iff in I as [I|I]; auto.
        -- cbn in CAP; lia.
        -- rewrite <- app_assoc; exact INC.
        -- intros x I. rewrite <- app_assoc. destruct (LOST x I); [auto|right; now apply overrun_snoc].
      * apply SubInv_same; [intros; discriminate| |assumption].
        rewrite st_snoc; cbn [log_step]. unfold send.
        destruct (get id' (l_subs (st later))) as [s|]; [|reflexivity].
        destruct (q_queue s); [reflexivity|]. cbn [l_subs]. apply get_put_neq. congruence.
Qed.
End Sub.
End Proofs.

Section More.
Context {A : Type}.

Lemma filter_skipn_numbered (l : list A) n :
  filter (fun e => n <? fst e) (numbered l) = skipn n (numbered l).
Proof.
  induction l as [|a l IH] using rev_ind; [now rewrite skipn_nil|].
  rewrite numbered_snoc, filter_app, IH. cbn [filter fst].
  destruct (n <? S (length l)) eqn:E.
  - apply Nat.ltb_lt in E. rewrite skipn_snoc; [reflexivity|rewrite numbered_length; lia].
  - apply Nat.ltb_ge in E. rewrite !skipn_all2; [reflexivity|..];
      rewrite ?app_length, numbered_length; cbn; lia.
Qed.

Lemma filter_skipn_le (l : list A) n m : m <= n ->
  filter (fun e => n <? fst e) (skipn m (numbered l)) = skipn n (numbered l).
Proof.
  intros H. rewrite <- (filter_skipn_numbered l m), <- (filter_skipn_numbered l n).
  induction (numbered l) as [|e r IH]; [reflexivity|]. cbn [filter].
  destruct (m <? fst e) eqn:E1; cbn [filter]; destruct (n <? fst e) eqn:E2; rewrite IH; try reflexivity.
  apply Nat.ltb_ge in E1. apply Nat.ltb_lt in E2. lia.
Qed.

Lemma query_complete limit (ops : list (log_op A)) n :
  length (appended ops) <= n + limit ->
  events_after n (after_ops limit ops) = skipn n (numbered (appended ops)).
Proof.
  intros H. unfold events_after. destruct (log_contents limit ops) as [_ [_ ->]].
  unfold lastn. apply filter_skipn_le. rewrite numbered_length. lia.
Qed.

Lemma keeps_up limit id after before (later : list (log_op A)) :
  stays id later ->
  (forall p1 a p2, later = p1 ++ Append a :: p2 ->
     length (waiting (after_ops limit (before ++ Subscribe id after :: p1)) id) < queue_cap) ->
  let L := after_ops limit (before ++ Subscribe id after :: later) in
  written L id ++ waiting L id = due limit before after later.
Proof.
  intros ST K L. destruct (SubInv_all limit id after before later ST) as [_ [d [DQ WD]] _ INC LOST].
  apply increasing_ext; [exact INC|apply D_increasing|].
  intros e; split.
  - intros I. fold (D limit after before later). rewrite DQ. apply in_app_iff.
    apply in_app_iff in I as [I|I]; auto.
  - intros I. destruct (LOST e I) as [H|[p1 [a [p2 [r [E [W Ln]]]]]]]; [exact H|].
    exfalso. specialize (K p1 a p2 E). unfold st in W. rewrite W, Ln in K. lia.
Qed.
End More.
