(* Proofs about the topic graph (DagModel.v). *)

From Coq Require Import String List Arith Relations Lia.
From Verif Require Import Dict DagModel DagSpec.
Import ListNotations.

(* ---- graphs as dicts of sets ---- *)

(** Well-formed: one entry per topic, no repetition in a successor set. *)
Definition gwf (g : graph) : Prop := NoDup (keys g) /\ forall n s, In (n, s) g -> NoDup s.

Lemma edge_in_getd g a b : gwf g -> (edge_in g a b <-> In b (getd a [] g)).
Proof.
  intros [ND _]; unfold edge_in, getd; split.
  - intros [s [I J]]. now rewrite (In_get a s g ND I).
  - destruct (get a g) as [s|] eqn:E; [|intros []]. intros J. apply get_In in E. eauto.
Qed.

Lemma gwf_nil : gwf [].
Proof. split; [constructor|intros n s []]. Qed.

Lemma gwf_put g n s : gwf g -> NoDup s -> gwf (put n s g).
Proof.
  intros [A B] C; split; [now apply NoDup_keys_put|].
  intros m s' I. apply In_put in I as [[-> ->]|[_ I]]; eauto.
Qed.

Lemma gwf_del g n : gwf g -> gwf (del n g).
Proof.
  intros [A B]; split; [now apply NoDup_keys_del|].
  intros m s' I. apply In_del in I as [_ I]; eauto.
Qed.

Lemma gwf_getd g n : gwf g -> NoDup (getd n [] g).
Proof.
  intros [A B]; unfold getd; destruct (get n g) eqn:E; [|constructor].
  apply get_In in E; eauto.
Qed.

Lemma gwf_touch g n : gwf g -> gwf (touch n g).
Proof.
  intros W; unfold touch; destruct (get n g); [assumption|apply gwf_put; [assumption|constructor]].
Qed.

Lemma gwf_add_arc g f t : gwf g -> gwf (add_arc f t g).
Proof. intros W; apply gwf_put; [assumption|apply NoDup_sadd, gwf_getd, W]. Qed.

Lemma gwf_del_arc g f t : gwf g -> gwf (del_arc f t g).
Proof.
  intros W; unfold del_arc; destruct (get f g) eqn:E; [|assumption].
  apply gwf_put; [assumption|]. apply NoDup_sdel. apply get_In in E. destruct W; eauto.
Qed.

Lemma edge_touch g n a b : gwf g -> (edge_in (touch n g) a b <-> edge_in g a b).
Proof.
  intros W. rewrite !edge_in_getd by auto using gwf_touch.
  unfold touch; destruct (get n g) eqn:E; [reflexivity|].
  unfold getd; rewrite get_put; destruct (dec a n); [|reflexivity].
  subst; now rewrite E.
Qed.

Lemma keys_touch g n m : In m (keys (touch n g)) <-> m = n \/ In m (keys g).
Proof.
  unfold touch; destruct (get n g) eqn:E; [|apply keys_put].
  apply get_Some_key in E. intuition congruence.
Qed.

Lemma edge_add_arc g f t a b : gwf g ->
  (edge_in (add_arc f t g) a b <-> edge_in g a b \/ (a = f /\ b = t)).
Proof.
  intros W. rewrite !edge_in_getd by auto using gwf_add_arc.
  unfold add_arc. unfold getd at 1; rewrite get_put; destruct (dec a f).
  - subst. rewrite In_sadd. intuition congruence.
  - unfold getd; intuition congruence.
Qed.

Lemma keys_add_arc g f t m : In m (keys (add_arc f t g)) <-> m = f \/ In m (keys g).
Proof. apply keys_put. Qed.

Lemma edge_del_arc g f t a b : gwf g ->
  (edge_in (del_arc f t g) a b <-> edge_in g a b /\ ~ (a = f /\ b = t)).
Proof.
  intros W. rewrite !edge_in_getd by auto using gwf_del_arc.
  unfold del_arc. destruct (get f g) as [s|] eqn:E.
  - unfold getd; rewrite get_put; destruct (dec a f).
    + subst. rewrite E, In_sdel. intuition congruence.
    + intuition congruence.
  - split; [|tauto]. intros I; split; [assumption|]. intros [-> ->].
    unfold getd in I; rewrite E in I; destruct I.
Qed.

Lemma keys_del_arc g f t m : In m (keys (del_arc f t g)) <-> In m (keys g).
Proof.
  unfold del_arc; destruct (get f g) eqn:E; [|reflexivity]. rewrite keys_put.
  apply get_Some_key in E. intuition congruence.
Qed.

(* ---- invgraph ---- *)

Lemma inv_inner f s : forall inv, gwf inv ->
  let r := fold_left (fun inv' t => add_arc t f inv') s inv in
  gwf r /\ (forall a b, edge_in r a b <-> edge_in inv a b \/ (b = f /\ In a s)) /\
  (forall m, In m (keys r) <-> In m (keys inv) \/ In m s).
Proof.
  induction s as [|t s IH]; intros inv W; cbn; [split; [exact W|split; intuition]|].
  destruct (IH _ (gwf_add_arc inv t f W)) as [A [B C]]; cbn in A, B, C.
  split; [assumption|split].
  - intros a b. rewrite B, edge_add_arc by assumption. intuition congruence.
  - intros m. rewrite C, keys_add_arc. intuition congruence.
Qed.

Lemma inv_outer g : forall inv, gwf inv ->
  let r := fold_left
    (fun inv p => fold_left (fun inv' t => add_arc t (fst p) inv') (snd p)
                            (touch (fst p) inv)) g inv in
  gwf r /\ (forall a b, edge_in r a b <-> edge_in inv a b \/ edge_in g b a) /\
  (forall m, In m (keys r) <-> In m (keys inv) \/ In m (keys g) \/ exists f, edge_in g f m).
Proof.
  induction g as [|[f s] g IH]; intros inv W; cbn.
  - split; [assumption|split]; unfold edge_in; cbn.
    + intros a b; split; [auto|]. intros [I|[s [[] _]]]; assumption.
    + intros m; split; [auto|]. intros [I|[[]|[f [s [[] _]]]]]; assumption.
  - destruct (inv_inner f s _ (gwf_touch inv f W)) as [A [B C]]; cbn in A, B, C.
    destruct (IH _ A) as [A' [B' C']]; cbn in A', B', C'.
    assert (Hc : forall a b, edge_in ((f, s) :: g) a b <-> (a = f /\ In b s) \/ edge_in g a b).
    { intros a b; unfold edge_in; cbn. split.
      - intros [s' [[E|I] J]]; [injection E as -> ->; auto|right; eauto].
      - intros [[-> I]|[s' [I J]]]; eauto. }
    split; [assumption|split].
    + intros a b. rewrite B', B, edge_touch, Hc by assumption. intuition.
    + intros m. rewrite C', C, keys_touch. split.
      * intros [[[->|I]|I]|[I|[f' I]]]; auto.
        -- right; right; exists f. apply Hc; auto.
        -- right; right; exists f'. apply Hc; auto.
      * intros [I|[[->|I]|[f' I]]]; auto.
        apply Hc in I as [[-> I]|I]; [auto|]. right; right; eauto.
Qed.

Lemma invgraph_wf g : gwf (invgraph g).
Proof. apply (inv_outer g [] gwf_nil). Qed.

Lemma edge_nil a b : ~ edge_in [] a b.
Proof. intros [s [[] _]]. Qed.

Lemma invgraph_edge g a b : edge_in (invgraph g) a b <-> edge_in g b a.
Proof.
  destruct (inv_outer g [] gwf_nil) as [_ [B _]]; cbn in B. unfold invgraph. rewrite B.
  pose proof (edge_nil a b); tauto.
Qed.

Lemma invgraph_keys g m : In m (keys (invgraph g)) <-> In m (keys g) \/ exists f, edge_in g f m.
Proof.
  destruct (inv_outer g [] gwf_nil) as [_ [_ C]]; cbn in C. unfold invgraph. rewrite C.
  tauto.
Qed.

(* ---- breadth-first search ---- *)

Definition gpath (g : graph) : topic -> topic -> Prop := clos_trans topic (edge_in g).

Lemma fold_sadd_In {A} `{Dec A} (q : list A) : forall c x,
  In x (fold_left (fun c t => sadd t c) q c) <-> In x c \/ In x q.
Proof.
  induction q as [|t q IH]; intros c x; cbn; [tauto|].
  rewrite IH, In_sadd. intuition congruence.
Qed.

Lemma fold_sadd_NoDup {A} `{Dec A} (q : list A) : forall c,
  NoDup c -> NoDup (fold_left (fun c t => sadd t c) q c).
Proof. induction q as [|t q IH]; intros c N; cbn; [assumption|apply IH, NoDup_sadd, N]. Qed.

Lemma NoDup_app_disj {A} (l m : list A) :
  NoDup l -> NoDup m -> (forall x, In x l -> ~ In x m) -> NoDup (l ++ m).
Proof.
  induction 1 as [|a l Na ND IH]; intros M D; cbn; [assumption|].
  constructor; [|apply IH; auto with datatypes].
  rewrite in_app_iff; intros [I|I]; [tauto|]. exact (D a (or_introl eq_refl) I).
Qed.

(** What holds at each iteration: everything found is reachable, everything
    found or queued is either still queued or has all its successors found. *)
Record BInv (g : graph) (n : topic) (q c : list topic) : Prop := {
  b_sound : forall x, In x c -> gpath g n x;
  b_queue : (q = [n] /\ c = []) \/ (forall x, In x q -> In x c);
  b_done : forall x y, x = n \/ In x c -> In x q \/ (edge_in g x y -> In y c);
  b_nodup : NoDup c
}.

Definition missing (g : graph) (c : list topic) : list topic :=
  filter (fun t => negb (mem t c)) (nodup string_dec (flat_map snd g)).

Lemma edge_target g a b : edge_in g a b -> In b (flat_map snd g).
Proof. intros [s [I J]]. apply in_flat_map. exists (a, s); auto. Qed.

Lemma filter_len {A} (p : A -> bool) l : length (filter p l) <= length l.
Proof. induction l as [|a l IH]; cbn; [lia|]. destruct (p a); cbn; lia. Qed.

Lemma nodup_len {A} (d : forall x y : A, {x = y} + {x <> y}) l : length (nodup d l) <= length l.
Proof. induction l as [|a l IH]; cbn; [lia|]. destruct (in_dec d a l); cbn; lia. Qed.

Lemma bfs_step g n x rest c : gwf g -> BInv g n (x :: rest) c ->
  let new := filter (fun t => negb (mem t c)) (getd x [] g) in
  let q' := rest ++ new in
  let c' := fold_left (fun c t => sadd t c) q' c in
  BInv g n q' c' /\
  length q' + length (missing g c') < length (x :: rest) + length (missing g c).
Proof.
  intros W [S Q D N]; intros new q' c'.
  assert (Hnew : forall y, In y new <-> edge_in g x y /\ ~ In y c).
  { intros y; unfold new. rewrite filter_In, Bool.negb_true_iff, mem_false.
    rewrite edge_in_getd by assumption. tauto. }
  assert (Hrest : forall y, In y rest -> In y c).
  { intros y I. destruct Q as [[E _]|Q]; [injection E as -> ->; destruct I|].
    apply Q; now right. }
  assert (Hc' : forall y, In y c' <-> In y c \/ In y new).
  { intros y; unfold c', q'. rewrite fold_sadd_In, in_app_iff.
    specialize (Hrest y). tauto. }
  assert (Hx : x = n \/ gpath g n x).
  { destruct Q as [[E _]|Q]; [injection E as -> ->; now left|].
    right. apply S, Q. now left. }
  split.
  - constructor.
    + intros y I. apply Hc' in I as [I|I]; [auto|].
      apply Hnew in I as [E _]. destruct Hx as [->|P]; [now apply t_step|].
      eapply t_trans; [exact P|now apply t_step].
    + right. intros y I. apply Hc'. apply in_app_iff in I as [I|I]; auto.
    + intros y z Hy.
      destruct (string_dec y x) as [->|Ny].
      { right. intros E. apply Hc'. destruct (in_dec string_dec z c); [auto|right].
        apply Hnew; auto. }
      assert (Hy' : (y = n \/ In y c) \/ In y new).
      { destruct Hy as [->|Hy]; [auto|]. apply Hc' in Hy; tauto. }
      destruct Hy' as [Hy'|Hy']; [|left; apply in_app_iff; auto].
      destruct (D y z Hy') as [[E|I]|I].
      * congruence.
      * left; apply in_app_iff; auto.
      * right. intros E. apply Hc'; auto.
    + now apply fold_sadd_NoDup.
  - unfold q'. rewrite app_length. cbn [length].
    enough (length (new ++ missing g c') <= length (missing g c))
      by (rewrite app_length in *; lia).
    apply NoDup_incl_length.
    + apply NoDup_app_disj.
      * apply NoDup_filter, gwf_getd, W.
      * apply NoDup_filter, NoDup_nodup.
      * intros y I J. unfold missing in J. apply filter_In in J as [_ J].
        apply Bool.negb_true_iff, mem_false in J. apply J, Hc'; auto.
    + intros y I. unfold missing. apply filter_In.
      rewrite nodup_In, Bool.negb_true_iff, mem_false.
      apply in_app_iff in I as [I|I].
      * apply Hnew in I as [E I]. split; [eapply edge_target; eauto|assumption].
      * unfold missing in I. apply filter_In in I as [I J].
        rewrite nodup_In in I. apply Bool.negb_true_iff, mem_false in J.
        split; [assumption|]. intros K; apply J, Hc'; auto.
Qed.

Lemma bfs_loop_ok g n fuel : forall q c, gwf g -> BInv g n q c ->
  length q + length (missing g c) <= fuel ->
  exists r, bfs_loop fuel g q c = Some r /\ NoDup r /\ forall x, In x r <-> gpath g n x.
Proof.
  induction fuel as [|fuel IH]; intros q c W B L.
  - destruct q as [|x q]; [|cbn in L; lia]. exists c; split; [reflexivity|].
    destruct B as [S Q D N]; split; [assumption|]. intros x; split; [apply S|].
    intros P. apply clos_trans_tn1 in P. induction P as [y E|y z E P IHP].
    + destruct (D n y (or_introl eq_refl)) as [[]|K]; auto.
    + destruct (D y z (or_intror IHP)) as [[]|K]; auto.
  - destruct q as [|x q].
    + exists c; split; [reflexivity|].
      destruct B as [S Q D N]; split; [assumption|]. intros x; split; [apply S|].
      intros P. apply clos_trans_tn1 in P. induction P as [y E|y z E P IHP].
      * destruct (D n y (or_introl eq_refl)) as [[]|K]; auto.
      * destruct (D y z (or_intror IHP)) as [[]|K]; auto.
    + destruct (bfs_step g n x q c W B) as [B' L']. cbn [bfs_loop].
      apply (IH _ _ W B'). lia.
Qed.

Lemma bfs_inv0 g n : BInv g n [n] [].
Proof.
  constructor.
  - intros x [].
  - now left.
  - intros x y [->|[]]. left; now left.
  - constructor.
Qed.

Lemma bfs_total g n fuel : gwf g -> bfs_fuel g <= fuel ->
  bfs_loop fuel g [n] [] = Some (bfs g n).
Proof.
  intros W L.
  assert (M : length [n] + length (missing g []) <= bfs_fuel g).
  { unfold bfs_fuel, missing; cbn [length].
    pose proof (filter_len (fun t => negb (mem t [])) (nodup string_dec (flat_map snd g))).
    pose proof (nodup_len string_dec (flat_map snd g)).  lia. }
  destruct (bfs_loop_ok g n (bfs_fuel g) _ _ W (bfs_inv0 g n) M) as [r [E _]].
  unfold bfs; rewrite E.
  assert (Mono : forall f q c r, bfs_loop f g q c = Some r ->
                 forall f', f <= f' -> bfs_loop f' g q c = Some r).
  { clear. induction f as [|f IH]; intros q c r E f' L; destruct q as [|x q].
    - destruct f'; exact E.
    - discriminate.
    - destruct f'; exact E.
    - destruct f'; [lia|]. cbn [bfs_loop] in *. apply IH; [assumption|lia]. }
  exact (Mono _ _ _ _ E _ L).
Qed.

Lemma bfs_spec g n : gwf g ->
  NoDup (bfs g n) /\ forall x, In x (bfs g n) <-> gpath g n x.
Proof.
  intros W.
  assert (M : length [n] + length (missing g []) <= bfs_fuel g).
  { unfold bfs_fuel, missing; cbn [length].
    pose proof (filter_len (fun t => negb (mem t [])) (nodup string_dec (flat_map snd g))).
    pose proof (nodup_len string_dec (flat_map snd g)).  lia. }
  destruct (bfs_loop_ok g n (bfs_fuel g) _ _ W (bfs_inv0 g n) M) as [r [E R]].
  unfold bfs; rewrite E. exact R.
Qed.

(* ---- prune ---- *)

Lemma leaves_In g n : NoDup (keys g) ->
  (In n (leaves g) <-> In n (keys g) /\ forall m, ~ edge_in g n m).
Proof.
  intros ND. unfold leaves; rewrite in_map_iff. split.
  - intros [[n' s] [E I]]; cbn in E; subst n'. apply filter_In in I as [I L]; cbn in L.
    apply Nat.eqb_eq, length_zero_iff_nil in L; subst s.
    split; [apply in_map_iff; exists (n, []); auto|].
    intros m [s [J K]]. 
    apply (In_get n [] g ND) in I. apply (In_get n s g ND) in J.
    rewrite J in I; injection I as ->. destruct K.
  - intros [I N]. apply in_map_iff in I as [[n' s] [E I]]; cbn in E; subst n'.
    exists (n, s); split; [reflexivity|]. apply filter_In; split; [assumption|]; cbn.
    destruct s as [|m s]; [reflexivity|]. exfalso; apply (N m). exists (m :: s); cbn; auto.
Qed.

Lemma fold_del (g : graph) : forall (l : list topic) (k : topic) (v : list topic),
  In (k, v) (fold_left (fun g' n => del n g') l g) <-> In (k, v) g /\ ~ In k l.
Proof.
  intros l; revert g; induction l as [|n l IH]; intros g k v; cbn; [tauto|].
  rewrite IH, In_del. intuition congruence.
Qed.

Lemma fold_del_wf l : forall g, gwf g -> gwf (fold_left (fun g' n => del n g') l g).
Proof. induction l as [|n l IH]; intros g W; cbn; [assumption|apply IH, gwf_del, W]. Qed.

Lemma unconnected_In g n : gwf g ->
  (In n (filter (fun n => mem n (leaves (invgraph g))) (leaves g)) <->
   In n (keys g) /\ (forall m, ~ edge_in g n m) /\ (forall m, ~ edge_in g m n)).
Proof.
  intros [W W']. rewrite filter_In, mem_In, !leaves_In by (auto; apply invgraph_wf).
  rewrite invgraph_keys. split.
  - intros [[I A] [_ B]]; split; [assumption|split; [assumption|]]. intros m E. apply (B m).
    apply invgraph_edge. exact E.
  - intros [I [A B]]; split; [auto|split; [auto|]]. intros m E. apply (B m).
    exact (proj1 (invgraph_edge _ _ _) E).
Qed.

Lemma prune_wf g : gwf g -> gwf (prune g).
Proof. intros W; unfold prune. now apply fold_del_wf. Qed.

Lemma prune_edge g a b : gwf g -> (edge_in (prune g) a b <-> edge_in g a b).
Proof.
  intros W; unfold prune, edge_in. split.
  - intros [s [I J]]. apply fold_del in I as [I _]. eauto.
  - intros [s [I J]]. exists s; split; [|assumption]. apply fold_del; split; [assumption|].
    rewrite unconnected_In by assumption. intros [_ [N _]]. apply (N b). exists s; auto.
Qed.

Lemma prune_keys g n : gwf g ->
  (In n (keys (prune g)) <->
   In n (keys g) /\ ((exists m, edge_in g n m) \/ (exists m, edge_in g m n))).
Proof.
  intros W. unfold keys, prune; rewrite !in_map_iff. split.
  - intros [[n' s] [E I]]; cbn in E; subst n'. apply fold_del in I as [I U].
    rewrite unconnected_In in U by assumption.
    assert (K : In n (keys g)) by (apply in_map_iff; exists (n, s); auto).
    split; [exists (n, s); auto|].
    destruct s as [|m s]; [|left; exists m; exists (m :: s); cbn; auto].
    (* an empty successor set: some topic points to n *)
    right. destruct (get n (invgraph g)) as [[|m s']|] eqn:G.
    + exfalso; apply U. repeat split; auto.
      * intros m [s [J L]]. apply (In_get n s g (proj1 W)) in J.
        apply (In_get n [] g (proj1 W)) in I. rewrite I in J; injection J as <-. destruct L.
      * intros m L. apply (proj2 (invgraph_edge g n m)) in L. apply edge_in_getd in L; [|apply invgraph_wf].
        unfold getd in L; rewrite G in L; destruct L.
    + exists m. apply invgraph_edge. apply edge_in_getd; [apply invgraph_wf|].
      unfold getd; rewrite G; now left.
    + exfalso; apply U. repeat split; auto.
      * intros m [s [J L]]. apply (In_get n s g (proj1 W)) in J.
        apply (In_get n [] g (proj1 W)) in I. rewrite I in J; injection J as <-. destruct L.
      * intros m L. apply (proj2 (invgraph_edge g n m)) in L. apply edge_in_getd in L; [|apply invgraph_wf].
        unfold getd in L; rewrite G in L; destruct L.
  - intros [[[n' s] [E I]] D]; cbn in E; subst n'. exists (n, s); split; [reflexivity|].
    apply fold_del; split; [assumption|]. rewrite unconnected_In by assumption.
    intros [_ [A B]]. destruct D as [[m D]|[m D]]; [now apply (A m)|now apply (B m)].
Qed.

(* ---- the invariant of the DAG ---- *)

Record DInv (d : dag) : Prop := {
  i_wf : gwf (d_graph d);
  i_onodup : NoDup (keys (d_owners d));
  i_own : forall e os, get e (d_owners d) = Some os -> os <> [] /\ NoDup os;
  i_edge : forall a b, has_edge d a b <-> In (a, b) (keys (d_owners d));
  i_nodes : forall n, In n (nodes d) <-> touches_edge d n;
  i_acyclic : acyclic d
}.

Lemma DInv_empty : DInv empty_dag.
Proof.
  constructor; cbn.
  - exact gwf_nil.
  - constructor.
  - discriminate.
  - intros a b; split; [intros E; now apply edge_nil in E|intros []].
  - intros n; split; [intros []|]. intros [m [E|E]]; now apply edge_nil in E.
  - intros a P. apply clos_trans_t1n in P. destruct P as [y E|y z E _]; now apply edge_nil in E.
Qed.

Lemma clos_trans_iff {A} (R S : A -> A -> Prop) :
  (forall a b, R a b <-> S a b) -> forall a b, clos_trans A R a b <-> clos_trans A S a b.
Proof.
  intros H a b; split; intros P; induction P as [x y E|x y z _ I1 _ I2];
    try (apply t_step, H, E); eapply t_trans; eauto.
Qed.

Lemma path_rt {A} (R : A -> A -> Prop) a b : clos_trans A R a b -> clos_refl_trans A R a b.
Proof. induction 1; [now apply rt_step|eapply rt_trans; eauto]. Qed.

Lemma rt_path {A} (R : A -> A -> Prop) a b :
  clos_refl_trans A R a b -> a = b \/ clos_trans A R a b.
Proof.
  induction 1 as [x y E|x|x y z _ [->|I] _ [->|J]]; auto.
  - right; now apply t_step.
  - right; eapply t_trans; eauto.
Qed.

Lemma path_with_split d f t a b : path_with d f t a b ->
  path d a b \/ (clos_refl_trans _ (has_edge d) a f /\ clos_refl_trans _ (has_edge d) t b).
Proof.
  intros Q. apply clos_trans_tn1 in Q.
  induction Q as [b [E|[-> ->]]|b c [E|[-> ->]] Q IH].
  - left; now apply t_step.
  - right; split; apply rt_refl.
  - destruct IH as [L|[L M]].
    + left. eapply t_trans; [exact L|now apply t_step].
    + right; split; [assumption|]. eapply rt_trans; [exact M|]. now apply rt_step.
  - right; split; [|apply rt_refl]. destruct IH as [L|[L _]]; [now apply path_rt|assumption].
Qed.

Lemma path_path_with d f t a b : path d a b -> path_with d f t a b.
Proof. induction 1 as [x y E|x y z _ I _ J]; [apply t_step; now left|eapply t_trans; eauto]. Qed.

(** Adding (f, t) to an acyclic graph makes a cycle exactly when it makes one through f. *)
Lemma cycle_through_f d f t x :
  acyclic d -> path_with d f t x x -> path_with d f t f f.
Proof.
  intros A P. destruct (path_with_split d f t x x P) as [L|[L M]]; [now apply A in L|].
  assert (T : clos_refl_trans _ (has_edge d) t f) by (eapply rt_trans; eauto).
  assert (S : path_with d f t f t) by (apply t_step; now right).
  apply rt_path in T as [<-|T]; [exact S|].
  eapply t_trans; [exact S|now apply path_path_with].
Qed.

Definition with_arc (f t : topic) (g : graph) : graph := touch t (add_arc f t g).

Lemma with_arc_wf f t g : gwf g -> gwf (with_arc f t g).
Proof. intros W; now apply gwf_touch, gwf_add_arc. Qed.

Lemma with_arc_edge f t g a b : gwf g ->
  (edge_in (with_arc f t g) a b <-> edge_in g a b \/ (a = f /\ b = t)).
Proof. intros W; unfold with_arc. rewrite edge_touch, edge_add_arc by auto using gwf_add_arc. reflexivity. Qed.

Lemma with_arc_keys f t g m : In m (keys (with_arc f t g)) <-> m = t \/ m = f \/ In m (keys g).
Proof. unfold with_arc. rewrite keys_touch, keys_add_arc. reflexivity. Qed.

Lemma mem_bfs_iff d f t : DInv d ->
  (mem f (bfs (with_arc f t (d_graph d)) f) = true <-> path_with d f t f f).
Proof.
  intros I. rewrite mem_In.
  rewrite (proj2 (bfs_spec _ f (with_arc_wf f t _ (i_wf d I)))).
  apply clos_trans_iff. intros a b. now apply with_arc_edge, i_wf.
Qed.

(** The three outcomes of a connect, described by the owners before it. *)
Lemma add_edge_cases d f t o : DInv d ->
  (add_edge f t o d = (d, Cyclic) /\ path_with d f t f f) \/
  (exists os, get (f, t) (d_owners d) = Some os /\ In o os /\
     add_edge f t o d = (d, Unchanged)) \/
  (exists os, get (f, t) (d_owners d) = Some os /\ ~ In o os /\
     add_edge f t o d = (mkDag (d_graph d) (put (f, t) (sadd o os) (d_owners d)), Unchanged)) \/
  (get (f, t) (d_owners d) = None /\ ~ path_with d f t f f /\
     add_edge f t o d = (mkDag (with_arc f t (d_graph d)) (put (f, t) [o] (d_owners d)), Appeared)).
Proof.
  intros I. unfold add_edge. destruct (eqd f t) eqn:Eft.
  { apply (proj1 (eqd_true f t)) in Eft; subst t. left; split; [reflexivity|]. apply t_step; now right. }
  destruct (get (f, t) (d_owners d)) as [os|] eqn:G.
  - unfold getd; rewrite G. destruct (mem o os) eqn:M.
    + right; left. exists os; split; [reflexivity|]. split; [now apply mem_In|].
      destruct d; reflexivity.
    + right; right; left. exists os. split; [reflexivity|]. split; [now apply mem_false|].
      destruct (length os =? 0)%nat eqn:L; [|reflexivity].
      apply Nat.eqb_eq, length_zero_iff_nil in L. now apply (i_own d I) in G as [N _].
  - assert (Gp : getd (f, t) [] (put (f, t) [] (d_owners d)) = [])
      by (unfold getd; now rewrite get_put_eq).
    rewrite Gp. cbn [mem existsb length Nat.eqb].
    pose proof (proj1 (get_None _ _) G) as NK.
    change (touch t (add_arc f t (d_graph d))) with (with_arc f t (d_graph d)).
    destruct (mem f (bfs (with_arc f t (d_graph d)) f)) eqn:M.
    + left. split; [|now apply mem_bfs_iff].
      rewrite del_put_absent by assumption. destruct d; reflexivity.
    + right; right; right. split; [reflexivity|]. split.
      { intros P. apply (mem_bfs_iff d f t I) in P. congruence. }
      f_equal. f_equal. cbn [sadd mem existsb app].
      change (sadd o []) with [o].
      generalize (d_owners d). generalize (f, t). clear.
      intros e l. induction l as [|[k v] l IH]; cbn [put].
      * destruct (dec e e); congruence.
      * destruct (dec e k) as [E|N]; cbn [put]; [|destruct (dec e k); congruence].
        destruct (dec e e); congruence.
Qed.

Lemma rejected_iff d f t o d' r : DInv d -> add_edge f t o d = (d', r) ->
  (r = Cyclic <-> exists x, path_with d f t x x).
Proof.
  intros I E. split.
  - intros ->. destruct (add_edge_cases d f t o I) as [[_ P]|[[os [_ [_ A]]]|[[os [_ [_ A]]]|[_ [_ A]]]]];
      [eauto|rewrite A in E; discriminate..].
  - intros [x P]. apply (cycle_through_f d f t x (i_acyclic d I)) in P.
    assert (OldEdge : forall os, get (f, t) (d_owners d) = Some os -> path d f f).
    { intros os G. apply get_Some_key in G. apply (i_edge d I) in G.
      destruct (path_with_split d f t f f P) as [L|[_ M]]; [assumption|].
      apply rt_path in M as [->|M]; [now apply t_step|].
      eapply t_trans; [apply t_step; exact G|exact M]. }
    destruct (add_edge_cases d f t o I) as [[A _]|[[os [G _]]|[[os [G _]]|[_ [N _]]]]].
    + rewrite A in E; congruence.
    + exfalso. exact (i_acyclic d I f (OldEdge os G)).
    + exfalso. exact (i_acyclic d I f (OldEdge os G)).
    + tauto.
Qed.

Lemma rejected_same d f t o d' : DInv d -> add_edge f t o d = (d', Cyclic) -> d' = d.
Proof.
  intros I E. destruct (add_edge_cases d f t o I) as [[A _]|[[os [_ [_ A]]]|[[os [_ [_ A]]]|[_ [_ A]]]]];
    rewrite A in E; congruence.
Qed.

Lemma DInv_same_graph d os e o : DInv d -> get e (d_owners d) = Some os ->
  o <> [] -> NoDup o -> DInv (mkDag (d_graph d) (put e o (d_owners d))).
Proof.
  intros [A B C D N Y] G O O'. constructor; cbn [d_graph d_owners]; [exact A| | | |exact N|exact Y].
  - now apply NoDup_keys_put.
  - intros e' os' G'. rewrite get_put in G'. destruct (dec e' e); [|eauto].
    injection G' as <-; auto.
  - intros a b. unfold has_edge; cbn [d_graph]. rewrite keys_put. rewrite (D a b : edge_in _ _ _ <-> _).
    apply get_Some_key in G. split; [auto|intros [->|J]; assumption].
Qed.

Lemma sadd_not_nil {A} `{Dec A} (x : A) s : sadd x s <> [].
Proof. unfold sadd. destruct (mem x s) eqn:E; [|destruct s; discriminate].
  apply mem_In in E. intros ->; destruct E. Qed.

Lemma DInv_add d f t o : DInv d -> DInv (fst (add_edge f t o d)).
Proof.
  intros I. destruct (add_edge_cases d f t o I) as [[E _]|[[os [_ [_ E]]]|[[os [G [No E]]]|[G [NP E]]]]];
    rewrite E; cbn [fst]; try assumption.
  - eapply DInv_same_graph; eauto; [apply sadd_not_nil|].
    apply NoDup_sadd. now apply (i_own d I) in G.
  - destruct I as [A B C D N Y].
    pose proof (proj1 (get_None _ _) G) as NK.
    constructor; cbn [d_graph d_owners].
    + now apply with_arc_wf.
    + now apply NoDup_keys_put.
    + intros e os Ge. rewrite get_put in Ge.
      destruct (dec e (f, t)); [|eauto]. injection Ge as <-. split; [discriminate|].
      repeat constructor; tauto.
    + intros a b. unfold has_edge; cbn [d_graph]. rewrite with_arc_edge by assumption.
      rewrite (D a b : edge_in _ _ _ <-> _). rewrite keys_put.
      intuition congruence.
    + intros n. unfold nodes, touches_edge, has_edge; cbn [d_graph]. rewrite with_arc_keys.
      split.
      * intros [->|[->|K]].
        -- exists f; right. apply with_arc_edge; auto.
        -- exists t; left. apply with_arc_edge; auto.
        -- apply N in K as [m [K|K]]; exists m; [left|right]; apply with_arc_edge; auto.
      * intros [m [K|K]]; apply with_arc_edge in K as [K|[-> ->]]; auto;
          right; right; apply N; exists m; auto.
    + intros x P. apply NP. apply (cycle_through_f d f t x Y).
      revert P. apply clos_trans_iff. intros a b. symmetry. now apply with_arc_edge.
Qed.

(** The outcomes of a disconnect. *)
Lemma remove_edge_cases d f t o : DInv d ->
  (~ In o (getd (f, t) [] (d_owners d)) /\ remove_edge f t o d = (d, false)) \/
  (exists os, get (f, t) (d_owners d) = Some os /\ In o os /\ sdel o os <> [] /\
     remove_edge f t o d = (mkDag (d_graph d) (put (f, t) (sdel o os) (d_owners d)), false)) \/
  (exists os, get (f, t) (d_owners d) = Some os /\ In o os /\ sdel o os = [] /\
     remove_edge f t o d =
       (mkDag (prune (del_arc f t (d_graph d))) (del (f, t) (d_owners d)), true)).
Proof.
  intros I. unfold remove_edge, getd. destruct (get (f, t) (d_owners d)) as [os|] eqn:G.
  - destruct (mem o os) eqn:M; [apply mem_In in M|apply mem_false in M; auto].
    right. destruct (length (sdel o os) =? 0)%nat eqn:L.
    + apply Nat.eqb_eq, length_zero_iff_nil in L. right; exists os; auto.
    + left; exists os. repeat split; auto. intros E; rewrite E in L; discriminate.
  - left; split; [intros []|reflexivity].
Qed.

Lemma DInv_remove d f t o : DInv d -> DInv (fst (remove_edge f t o d)).
Proof.
  intros I. destruct (remove_edge_cases d f t o I) as [[_ E]|[[os [G [Io [N E]]]]|[os [G [Io [N E]]]]]];
    rewrite E; cbn [fst].
  - assumption.
  - eapply DInv_same_graph; eauto. apply NoDup_sdel. now apply (i_own d I) in G.
  - destruct I as [A B C D Nn Y].
    assert (W' : gwf (del_arc f t (d_graph d))) by now apply gwf_del_arc.
    assert (HE : forall a b, edge_in (prune (del_arc f t (d_graph d))) a b <->
                             has_edge d a b /\ ~ (a = f /\ b = t)).
    { intros a b. rewrite prune_edge, edge_del_arc by assumption. reflexivity. }
    constructor; cbn [d_graph d_owners].
    + now apply prune_wf.
    + now apply NoDup_keys_del.
    + intros e os' G'. rewrite get_del in G'. destruct (dec e (f, t)); [discriminate|eauto].
    + intros a b. unfold has_edge; cbn [d_graph]. rewrite HE, keys_del, (D a b).
      split; [intros [X Z]; split; [intros E'; apply Z; injection E'; auto|exact X]|].
      intros [X Z]; split; [exact Z|intros [-> ->]; now apply X].
    + intros n. unfold nodes, touches_edge, has_edge; cbn [d_graph]. rewrite prune_keys by assumption.
      rewrite keys_del_arc. split.
      * intros [_ [[m K]|[m K]]]; exists m; [left|right]; now apply prune_edge.
      * intros [m K].
        assert (K' : edge_in (del_arc f t (d_graph d)) n m \/ edge_in (del_arc f t (d_graph d)) m n)
          by (destruct K as [K|K]; apply (proj1 (prune_edge _ _ _ W')) in K; auto).
        split.
        -- apply (Nn n). exists m.
           destruct K' as [K'|K']; apply (proj1 (edge_del_arc _ _ _ _ _ A)) in K' as [K' _]; auto.
        -- destruct K'; eauto.
    + intros x P. apply (Y x).
      assert (Gen : forall a b, path (mkDag (prune (del_arc f t (d_graph d)))
                        (del (f, t) (d_owners d))) a b -> path d a b).
      { clear -HE. induction 1 as [a b E|a b c _ J _ K]; [|eapply t_trans; eauto].
        apply t_step. apply HE in E. tauto. }
      auto.
Qed.

(* ---- remove_owner ---- *)

Definition ro_step (o : owner) (acc : dag * list edge) (e : edge) : dag * list edge :=
  let '(d', removed) := acc in
  if mem o (getd e [] (d_owners d'))
  then let '(d'', changed) := remove_edge (fst e) (snd e) o d' in
       (d'', if changed : bool then sadd e removed else removed)
  else (d', removed).

Definition owner_of (d : dag) (e : edge) (o : owner) : Prop := In o (getd e [] (d_owners d)).

Lemma getd_put {K V} `{Dec K} (k k' : K) (v w : V) d :
  getd k w (put k' v d) = if dec k k' then v else getd k w d.
Proof. unfold getd; rewrite get_put; destruct (dec k k'); reflexivity. Qed.

Lemma getd_del {K V} `{Dec K} (k k' : K) (w : V) d :
  getd k w (del k' d) = if dec k k' then w else getd k w d.
Proof. unfold getd; rewrite get_del; destruct (dec k k'); reflexivity. Qed.

(** A disconnect takes away exactly the named ownership. *)
Lemma remove_edge_owner d f t o e o' : DInv d ->
  (owner_of (fst (remove_edge f t o d)) e o' <-> owner_of d e o' /\ ~ (e = (f, t) /\ o' = o)).
Proof.
  intros I. unfold owner_of.
  destruct (remove_edge_cases d f t o I) as [[M E]|[[os [G [Io [N E]]]]|[os [G [Io [N E]]]]]];
    rewrite E; cbn [fst d_owners].
  - split; [|tauto]. intros J; split; [assumption|]. intros [-> ->]; tauto.
  - rewrite getd_put. destruct (dec e (f, t)) as [->|Ne].
    + rewrite In_sdel. unfold getd; rewrite G. intuition congruence.
    + intuition congruence.
  - rewrite getd_del. destruct (dec e (f, t)) as [->|Ne].
    + split; [intros []|]. unfold getd; rewrite G. intros [J K].
      assert (o' <> o) by (intros ->; tauto).
      assert (J' : In o' (sdel o os)) by now apply In_sdel. rewrite N in J'; destruct J'.
    + intuition congruence.
Qed.

Lemma has_edge_owner d a b : DInv d -> (has_edge d a b <-> exists o, owner_of d (a, b) o).
Proof.
  intros I. rewrite (i_edge d I). unfold owner_of, getd. split.
  - intros K. apply key_get in K as [os G]. rewrite G.
    apply (i_own d I) in G as [N _]. destruct os as [|o os]; [congruence|exists o; now left].
  - intros [o J]. destruct (get (a, b) (d_owners d)) eqn:G; [|destruct J].
    now apply get_Some_key in G.
Qed.

Lemma remove_edge_changed d f t o d' r : DInv d -> remove_edge f t o d = (d', r) ->
  (r = true <-> has_edge d f t /\ ~ has_edge d' f t).
Proof.
  intros I E0. pose proof (DInv_remove d f t o I) as I'. rewrite E0 in I'; cbn in I'.
  destruct (remove_edge_cases d f t o I) as [[M E]|[[os [G [Io [N E]]]]|[os [G [Io [N E]]]]]];
    rewrite E in E0; injection E0 as <- <-.
  - split; [discriminate|tauto].
  - split; [discriminate|]. intros [_ K]. exfalso; apply K. apply (i_edge _ I'); cbn [d_owners].
    apply keys_put; now left.
  - split; [intros _|reflexivity]. split.
    + apply (i_edge d I). eapply get_Some_key; eauto.
    + intros K. apply (i_edge _ I') in K; cbn [d_owners] in K. apply keys_del in K; tauto.
Qed.

Lemma ro_fold d0 o : forall es d removed, DInv d ->
  (forall e, In e removed <-> has_edge d0 (fst e) (snd e) /\ ~ has_edge d (fst e) (snd e)) ->
  (forall e, has_edge d (fst e) (snd e) -> has_edge d0 (fst e) (snd e)) ->
  NoDup removed ->
  let r := fold_left (ro_step o) es (d, removed) in
  DInv (fst r) /\
  (forall e o', owner_of (fst r) e o' <-> owner_of d e o' /\ ~ (o' = o /\ In e es)) /\
  (forall e, In e (snd r) <-> has_edge d0 (fst e) (snd e) /\ ~ has_edge (fst r) (fst e) (snd e)) /\
  NoDup (snd r).
Proof.
  induction es as [|e es IH]; intros d removed I R Sub ND; cbn -[has_edge].
  { split; [assumption|split; [|split; assumption]]. intros; tauto. }
  destruct (mem o (getd e [] (d_owners d))) eqn:M.
  - destruct (remove_edge (fst e) (snd e) o d) as [d1 ch] eqn:E.
    pose proof (DInv_remove d (fst e) (snd e) o I) as I1. rewrite E in I1; cbn in I1.
    pose proof (fun e' o' => remove_edge_owner d (fst e) (snd e) o e' o' I) as O1.
    rewrite E in O1; cbn [fst] in O1. rewrite <- surjective_pairing in O1.
    pose proof (remove_edge_changed d (fst e) (snd e) o d1 ch I E) as CH.
    assert (Oth : forall e', e' <> e -> has_edge d1 (fst e') (snd e') <-> has_edge d (fst e') (snd e')).
    { intros e' Ne. rewrite (has_edge_owner d1 _ _ I1), (has_edge_owner d _ _ I).
      rewrite <- surjective_pairing. split; intros [o' J]; exists o'; apply O1 in J || apply O1;
      intuition congruence. }
    assert (Dn : has_edge d1 (fst e) (snd e) -> has_edge d (fst e) (snd e)).
    { rewrite (has_edge_owner d1 _ _ I1), (has_edge_owner d _ _ I).
      rewrite <- surjective_pairing. intros [o' J]; exists o'; apply O1 in J; tauto. }
    assert (Up : has_edge d (fst e) (snd e)).
    { rewrite (has_edge_owner d _ _ I), <- surjective_pairing. exists o. now apply mem_In. }
    destruct (IH d1 (if ch then sadd e removed else removed) I1) as [A [B [C N']]].
    + intros e'. destruct (dec e' e) as [->|Ne].
      * destruct ch.
        -- rewrite In_sadd. split; [intros _; split; [apply Sub, Up|apply CH; reflexivity]|now left].
        -- rewrite R. split; [tauto|]. intros [K L]; split; [assumption|].
           exfalso. assert (false = true) by (apply CH; auto). discriminate.
      * rewrite Oth by assumption. destruct ch; [rewrite In_sadd|]; rewrite R; intuition congruence.
    + intros e' K. apply Sub. destruct (dec e' e) as [->|Ne]; [now apply Dn|now apply Oth in K].
    + destruct ch; [now apply NoDup_sadd|assumption].
    + split; [exact A|split; [|split; assumption]].
      intros e' o'. rewrite B, O1. split.
      * intros [[J K] L]; split; [exact J|intros [-> [<-|M']]; tauto].
      * intros [J K]; split; [split; [exact J|intros [-> ->]; apply K; auto]|].
        intros [-> M']; apply K; auto.
  - destruct (IH d removed I R Sub ND) as [A [B [C N']]].
    split; [exact A|split; [|split; assumption]].
    intros e' o'. rewrite B. apply mem_false in M. split.
    + intros [J K]; split; [assumption|]. intros [-> [->|L]]; [now apply M|tauto].
    + intros [J K]; split; [assumption|]. intros [-> L]; apply K; auto.
Qed.

Lemma remove_owner_ok d o : DInv d ->
  let r := remove_owner o d in
  DInv (fst r) /\
  (forall e o', owner_of (fst r) e o' <-> owner_of d e o' /\ o' <> o) /\
  (forall e, In e (snd r) <-> has_edge d (fst e) (snd e) /\ ~ has_edge (fst r) (fst e) (snd e)) /\
  NoDup (snd r).
Proof.
  intros I r. unfold r, remove_owner. fold (ro_step o).
  destruct (ro_fold d o (keys (d_owners d)) d [] I) as [A [B [C N]]].
  - intros e; split; [intros []|tauto].
  - auto.
  - constructor.
  - split; [exact A|split; [|split; assumption]]. intros e o'. rewrite B. split.
    + intros [J K]; split; [assumption|]. intros ->. apply K; split; [reflexivity|].
      unfold owner_of, getd in J. destruct (get e (d_owners d)) eqn:G; [|destruct J].
      now apply get_Some_key in G.
    + intros [J K]; split; [assumption|tauto].
Qed.

(* ---- histories ---- *)

Lemma DInv_step d op : DInv d -> DInv (fst (dag_step d op)).
Proof.
  intros I; destruct op as [f t o|f t o|o]; cbn.
  - pose proof (DInv_add d f t o I). destruct (add_edge f t o d); assumption.
  - pose proof (DInv_remove d f t o I). destruct (remove_edge f t o d); assumption.
  - pose proof (remove_owner_ok d o I) as [A _]. destruct (remove_owner o d); assumption.
Qed.

Lemma dag_run_app d ops1 ops2 :
  dag_run d (ops1 ++ ops2) =
  let '(d1, h1) := dag_run d ops1 in
  let '(d2, h2) := dag_run d1 ops2 in (d2, h1 ++ h2).
Proof.
  revert d; induction ops1 as [|op ops IH]; intros d; cbn.
  - destruct (dag_run d ops2); reflexivity.
  - destruct (dag_step d op) as [d' a]. rewrite IH.
    destruct (dag_run d' ops) as [d1 h1]. destruct (dag_run d1 ops2); reflexivity.
Qed.

Lemma DInv_run ops : forall d, DInv d -> DInv (fst (dag_run d ops)).
Proof.
  induction ops as [|op ops IH]; intros d I; cbn; [assumption|].
  pose proof (DInv_step d op I) as J. destruct (dag_step d op) as [d' a]; cbn in J.
  specialize (IH d' J). destruct (dag_run d' ops); assumption.
Qed.

Lemma DInv_after ops : DInv (state_after ops).
Proof. apply DInv_run, DInv_empty. Qed.

Lemma add_edge_owner d f t o e o' : DInv d ->
  (owner_of (fst (add_edge f t o d)) e o' <->
   owner_of d e o' \/ (e = (f, t) /\ o' = o /\ snd (add_edge f t o d) <> Cyclic)).
Proof.
  intros I. unfold owner_of.
  destruct (add_edge_cases d f t o I) as [[E _]|[[os [G [Io E]]]|[[os [G [No E]]]|[G [NP E]]]]];
    rewrite E; cbn [fst snd d_owners].
  - intuition congruence.
  - split; [auto|]. intros [J|[-> [-> _]]]; [assumption|]. unfold getd; now rewrite G.
  - rewrite getd_put. destruct (dec e (f, t)) as [->|Ne].
    + rewrite In_sadd. unfold getd; rewrite G. intuition congruence.
    + intuition congruence.
  - rewrite getd_put. destruct (dec e (f, t)) as [->|Ne].
    + unfold getd; rewrite G. cbn. intuition congruence.
    + intuition congruence.
Qed.

Lemma owns_nil f t o : ~ owns [] f t o.
Proof. intros [b [a [r [E _]]]]. destruct b; discriminate. Qed.

Lemma owns_snoc h ev f t o :
  owns (h ++ [ev]) f t o <->
  (owns h f t o /\ ~ gives_up f t o ev) \/
  (exists r, ev = (OConnect f t o, AConnect r) /\ r <> Cyclic).
Proof.
  split.
  - intros [b [a [r [E [Nr F]]]]].
    destruct (exists_last (l := (OConnect f t o, AConnect r) :: a)) as [a' [x Ex]]; [discriminate|].
    destruct a as [|y a].
    + right. exists r; split; [|assumption]. apply app_inj_tail in E as [_ E]. exact E.
    + left. destruct (exists_last (l := y :: a)) as [a2 [z Ez]]; [discriminate|].
      rewrite Ez in E. rewrite app_comm_cons, app_assoc in E.
      apply app_inj_tail in E as [-> ->]. split.
      * exists b, a2, r; repeat split; auto. intros w Hw. apply F. rewrite Ez.
        apply in_app_iff; auto.
      * apply F. rewrite Ez. apply in_app_iff; right; now left.
  - intros [[[b [a [r [-> [Nr F]]]]] G]|[r [-> Nr]]].
    + exists b, (a ++ [ev]), r. rewrite <- app_assoc. repeat split; auto.
      intros w Hw. apply in_app_iff in Hw as [Hw|[<-|[]]]; auto.
    + exists h, [], r. repeat split; auto.
Qed.

Lemma run_snoc ops op :
  state_after (ops ++ [op]) = fst (dag_step (state_after ops) op) /\
  history (ops ++ [op]) = history ops ++ [(op, snd (dag_step (state_after ops) op))].
Proof.
  unfold state_after, history. rewrite dag_run_app.
  destruct (dag_run empty_dag ops) as [d h]; cbn.
  destruct (dag_step d op); cbn. auto.
Qed.

Lemma owns_owner ops f t o : owns (history ops) f t o <-> owner_of (state_after ops) (f, t) o.
Proof.
  induction ops as [|op ops IH] using rev_ind.
  { split; [intros H; now apply owns_nil in H|intros []]. }
  destruct (run_snoc ops op) as [-> ->]. rewrite owns_snoc, IH. clear IH.
  pose proof (DInv_after ops) as I. set (d := state_after ops) in *. unfold gives_up; cbn [fst].
  destruct op as [f' t' o'|f' t' o'|o']; cbn [dag_step].
  - pose proof (add_edge_owner d f' t' o' (f, t) o I) as A.
    destruct (add_edge f' t' o' d) as [d' r]; cbn [fst snd] in *. rewrite A. split.
    + intros [[J _]|[r' [E N]]]; [auto|]. injection E as -> -> -> ->. auto.
    + intros [J|[E [-> N]]].
      * left; split; [assumption|]. intros [K|K]; discriminate.
      * injection E as -> ->. right; eauto.
  - pose proof (remove_edge_owner d f' t' o' (f, t) o I) as A.
    destruct (remove_edge f' t' o' d) as [d' r]; cbn [fst snd] in *. rewrite A. split.
    + intros [[J K]|[r' [E _]]]; [|discriminate]. split; [assumption|].
      intros [E ->]. injection E as -> ->. tauto.
    + intros [J K]. left; split; [assumption|]. intros [E|E]; [|discriminate].
      injection E as -> -> ->. tauto.
  - pose proof (remove_owner_ok d o' I) as [_ [A _]].
    destruct (remove_owner o' d) as [d' r]; cbn [fst snd] in *. rewrite A. split.
    + intros [[J K]|[r' [E _]]]; [|discriminate]. split; [assumption|]. intros ->. tauto.
    + intros [J K]. left; split; [assumption|]. intros [E|E]; [discriminate|]. congruence.
Qed.

Lemma add_edge_changed d f t o d' r : DInv d -> add_edge f t o d = (d', r) ->
  (r = Appeared <-> ~ has_edge d f t /\ has_edge d' f t) /\
  (forall a b, (a, b) <> (f, t) -> (has_edge d' a b <-> has_edge d a b)).
Proof.
  intros I E0. pose proof (DInv_add d f t o I) as I'. rewrite E0 in I'; cbn in I'.
  assert (O : forall e o', owner_of d' e o' <->
     owner_of d e o' \/ (e = (f, t) /\ o' = o /\ r <> Cyclic)).
  { intros e o'. pose proof (add_edge_owner d f t o e o' I) as A. rewrite E0 in A. exact A. }
  split.
  - destruct (add_edge_cases d f t o I) as [[E _]|[[os [G [Io E]]]|[[os [G [No E]]]|[G [NP E]]]]];
      rewrite E in E0; injection E0 as <- <-.
    + split; [discriminate|tauto].
    + split; [discriminate|tauto].
    + split; [discriminate|]. intros [K _]. exfalso; apply K. apply (i_edge d I).
      eapply get_Some_key; eauto.
    + split; [intros _|reflexivity]. split.
      * intros K. apply (i_edge d I) in K. now apply get_None in G.
      * apply (i_edge _ I'); cbn [d_owners]. apply keys_put; now left.
  - intros a b N. rewrite (has_edge_owner d' _ _ I'), (has_edge_owner d _ _ I).
    split; intros [o' J]; exists o'; apply O in J || apply O; intuition congruence.
Qed.

(* ---- upstream and downstream ---- *)

Lemma downstream_spec d n : DInv d ->
  NoDup (downstream n d) /\ forall x, In x (downstream n d) <-> x = n \/ path d n x.
Proof.
  intros I. destruct (bfs_spec (d_graph d) n (i_wf d I)) as [A B]. unfold downstream. split.
  - apply NoDup_app_one; [assumption|]. rewrite B. apply (i_acyclic d I).
  - intros x. rewrite in_app_iff, B; cbn. unfold path, has_edge, gpath. intuition congruence.
Qed.

Lemma clos_trans_flip {A} (R : A -> A -> Prop) a b :
  clos_trans A (fun x y => R y x) a b <-> clos_trans A R b a.
Proof.
  split; intros P; induction P as [x y E|x y z _ I _ J];
    try (now apply t_step); eapply t_trans; eauto.
Qed.

Lemma upstream_spec d n : DInv d ->
  NoDup (upstream n d) /\ forall x, In x (upstream n d) <-> x = n \/ path d x n.
Proof.
  intros I. destruct (bfs_spec (invgraph (d_graph d)) n (invgraph_wf _)) as [A B].
  assert (B' : forall x, In x (bfs (invgraph (d_graph d)) n) <-> path d x n).
  { intros x. rewrite B. unfold path. rewrite <- clos_trans_flip. apply clos_trans_iff.
    intros a b. apply invgraph_edge. }
  unfold upstream. split.
  - apply NoDup_app_one; [assumption|]. rewrite B'. apply (i_acyclic d I).
  - intros x. rewrite in_app_iff, B'; cbn. intuition congruence.
Qed.
