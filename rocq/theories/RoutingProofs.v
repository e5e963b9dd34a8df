(* Proofs about RoutingModel.v. *)

From Coq Require Import String List Arith Bool Lia Relations.
From Verif Require Import Dict DagModel DagSpec DagProofs EventLogModel ServerModel ServerSpec ServerFrames
  ServerProofs ServerTopology RoutingModel RoutingSpec.
Import ListNotations.

(* ---- one command ---- *)

Lemma live_get s i c : CInv s -> (In (i, c) (s_clients s) <-> get i (s_clients s) = Some c).
Proof.
  intros I. split; [apply In_get, (c_nodup _ _ _ I)|apply get_In].
Qed.

Lemma step_clients s l s' r w : CInv s -> step s l = Some (s', r, w) ->
  s_next s <= s_next s' /\
  (forall i t, get i (s_clients s') = Some (CSub t) ->
     get i (s_clients s) = Some (CSub t) \/ (l = LSubscribe t /\ i = s_next s)) /\
  (forall i t, get i (s_clients s') = Some (CPub t) ->
     get i (s_clients s) = Some (CPub t) \/ (l = LPublish t /\ i = s_next s)).
Proof.
  intros I E. pose proof (step_effect s l s' r w I E) as H. clear E.
  assert (Gen : forall n cs, s_next s' = n -> s_clients s' = cs -> s_next s <= n ->
     (forall i c, get i cs = Some c ->
        (get i (s_clients s) = Some c \/ match c with CSub t => l = LSubscribe t /\ i = s_next s
                                                 | CPub t => l = LPublish t /\ i = s_next s
                                                 | _ => True end)) ->
     s_next s <= s_next s' /\
     (forall i t, get i (s_clients s') = Some (CSub t) ->
        get i (s_clients s) = Some (CSub t) \/ (l = LSubscribe t /\ i = s_next s)) /\
     (forall i t, get i (s_clients s') = Some (CPub t) ->
        get i (s_clients s) = Some (CPub t) \/ (l = LPublish t /\ i = s_next s))).
  { intros n cs -> -> Le G. split; [assumption|].
    split; intros i t K; exact (G _ _ K). }
  assert (Put : forall sid c i c0, match c with CSub _ | CPub _ => False | _ => True end ->
     get i (put sid c (s_clients s)) = Some c0 ->
     get i (s_clients s) = Some c0 \/ match c0 with CSub t => l = LSubscribe t /\ i = s_next s
                                                 | CPub t => l = LPublish t /\ i = s_next s
                                                 | _ => True end).
  { intros sid c i c0 Hc G. rewrite get_put in G. destruct (dec i sid); [|now left].
    injection G as <-. right. destruct c; try contradiction; exact Logic.I. }
  assert (Del : forall sid i c0, get i (del sid (s_clients s)) = Some c0 ->
     get i (s_clients s) = Some c0 \/ match c0 with CSub t => l = LSubscribe t /\ i = s_next s
                                                 | CPub t => l = LPublish t /\ i = s_next s
                                                 | _ => True end).
  { intros sid i c0 G. rewrite get_del in G. destruct (dec i sid); [discriminate|now left]. }
  assert (Cor : forall n d cs, core s' = (n, d, cs) -> s_next s' = n /\ s_clients s' = cs).
  { intros n d cs K. split; [apply (f_equal (fun p => fst (fst p))) in K|apply (f_equal snd) in K]; exact K. }
  destruct H as
    [l c s' Hc Hl E | l r _ | id c s' G Hc E | f t s' d' r tl A N E | f t s' d' ch tl A E
    | sid f t s' d' r tl es md Si A N E | sid f t s' d' ch tl es md Si A E
    | sid md es md0 s' Si C E | sid es md d' ts x tl s' Si C G N E | sid es md d' ts x tl s' Si C G N E
    | pid us us0 s' tl Pi C E | pid added removed us0 s' tl Pi C E | pid a v us s' msid Pi Ia M E
    | pid req body us Pi | pid us Pi | u ok | req G | req G | req r G ]; try subst s'.
  - eapply Gen; [reflexivity|reflexivity|cbn; lia|]. intros i c0 G. sproj_in G. rewrite get_put in G.
    destruct (dec i (s_next s)) as [->|]; [|now left]. injection G as <-. right.
    destruct Hl as [[-> ->]|[[-> ->]|[[t [-> ->]]|[[t [-> ->]]|[p [t [-> [-> _]]]]]]]]; auto.
  - eapply Gen; [reflexivity|reflexivity|lia|]. now left.
  - eapply Gen; [reflexivity|reflexivity|cbn; lia|]. apply Del.
  - eapply Gen; [reflexivity|reflexivity|cbn; lia|]. now left.
  - eapply Gen; [reflexivity|reflexivity|cbn; lia|]. now left.
  - eapply Gen; [reflexivity|reflexivity|cbn; lia|]. intros i c0. apply Put. exact Logic.I.
  - eapply Gen; [reflexivity|reflexivity|cbn; lia|]. intros i c0. apply Put. exact Logic.I.
  - pose proof (core_apply sid md (set_metadata sid (Some md) (remove_settings_for_session sid s))) as K.
    pose proof (core_remove_session sid s) as K1.
    assert (Si1 : session_info sid (remove_settings_for_session sid s) = Some (es, md0)).
    { unfold session_info. apply (f_equal snd) in K1. cbn [core snd] in K1. rewrite K1. exact Si. }
    rewrite (set_metadata_eq _ _ _ _ _ Si1) in K.
    set (s1 := remove_settings_for_session sid s) in *.
    assert (Kn : s_next s1 = s_next s) by (apply (f_equal (fun p => fst (fst p))) in K1; exact K1).
    assert (Kc : s_clients s1 = s_clients s) by (apply (f_equal snd) in K1; exact K1).
    unfold core in K at 2. sproj_in K.
    rewrite (set_metadata_eq _ _ _ _ _ Si1) in Cor |- *.
    rewrite (set_metadata_eq _ _ _ _ _ Si1) in Gen.
    destruct (Cor _ _ _ K) as [A B].
    eapply Gen; [exact A|exact B|lia|]. intros i c0 G. rewrite Kc in G. eapply Put; [|exact G]. exact Logic.I.
  - eapply Gen; [reflexivity|reflexivity|cbn; lia|]. intros i c0. apply Put. exact Logic.I.
  - eapply Gen; [reflexivity|reflexivity|cbn; lia|]. apply Del.
  - eapply Gen; [reflexivity|reflexivity|cbn; lia|]. intros i c0. apply Put. exact Logic.I.
  - eapply Gen; [reflexivity|reflexivity|cbn; lia|]. intros i c0. apply Put. exact Logic.I.
  - eapply Gen; [reflexivity|reflexivity|cbn; lia|]. now left.
  - destruct (Cor _ _ _ (core_route_response pid req body s)) as [A B].
    eapply Gen; [exact A|exact B|lia|]. now left.
  - destruct (Cor _ _ _ (core_process_gone pid s)) as [A B].
    eapply Gen; [exact A|exact B|lia|]. apply Del.
  - destruct (Cor _ _ _ (core_route_request u ok s)) as [A B].
    eapply Gen; [exact A|exact B|lia|]. now left.
  - eapply Gen; [reflexivity|reflexivity|cbn; lia|]. now left.
  - eapply Gen; [reflexivity|reflexivity|cbn; lia|]. now left.
  - eapply Gen; [reflexivity|reflexivity|cbn; lia|]. now left.
Qed.

Lemma reaches_dec s u x : CInv s -> reaches s u x \/ ~ reaches s u x.
Proof.
  intros I. destruct (downstream_spec (s_dag s) u (c_dag _ _ _ I)) as [_ D].
  destruct (mem x (downstream u (s_dag s))) eqn:M.
  - left. apply mem_In, D in M as [->|M]; [now left|now right].
  - right. intros H. apply mem_false in M. apply M, D. destruct H as [->|H]; auto.
Qed.

Lemma reaches_list_dec s ts x : CInv s ->
  (exists u, In u ts /\ reaches s u x) \/ (forall u, In u ts -> ~ reaches s u x).
Proof.
  intros I. induction ts as [|t ts [[u [A B]]|IH]].
  - right. intros u K. destruct K.
  - left. exists u. split; [now right|assumption].
  - destruct (reaches_dec s t x I) as [R|R]; [left; exists t; split; [now left|assumption]|].
    right. intros u [<-|K]; auto.
Qed.

(** If no changed target reaches [x] any more, the topics that reach [x] are the same. *)
Lemma reaches_stable (s s' : server) ts x :
  (forall t, In t ts <-> target_changed (s_dag s) (s_dag s') t) ->
  (forall u, In u ts -> ~ reaches s' u x) ->
  forall y, reaches s y x <-> reaches s' y x.
Proof.
  intros T N.
  assert (Dec : forall a b, has_edge (s_dag s) a b \/ ~ has_edge (s_dag s) a b).
  { intros a b. unfold has_edge, edge_in.
    destruct (existsb (fun p => eqd a (fst p) && mem b (snd p)) (d_graph (s_dag s))) eqn:E.
    - left. apply existsb_exists in E as [[c l] [I E]]. apply andb_true_iff in E as [E1 E2].
      apply (proj1 (eqd_true _ _)) in E1. apply (proj1 (mem_In _ _)) in E2. cbn in *. subst. eauto.
    - right. intros [l [I J]]. assert (K : existsb (fun p => eqd a (fst p) && mem b (snd p)) (d_graph (s_dag s)) = true).
      { apply existsb_exists. exists (a, l). split; [assumption|]. cbn. rewrite eqd_refl. cbn. now apply mem_In. }
      congruence. }
  assert (Dec' : forall a b, has_edge (s_dag s') a b \/ ~ has_edge (s_dag s') a b).
  { intros a b. unfold has_edge, edge_in.
    destruct (existsb (fun p => eqd a (fst p) && mem b (snd p)) (d_graph (s_dag s'))) eqn:E.
    - left. apply existsb_exists in E as [[c l] [I E]]. apply andb_true_iff in E as [E1 E2].
      apply (proj1 (eqd_true _ _)) in E1. apply (proj1 (mem_In _ _)) in E2. cbn in *. subst. eauto.
    - right. intros [l [I J]]. assert (K : existsb (fun p => eqd a (fst p) && mem b (snd p)) (d_graph (s_dag s')) = true).
      { apply existsb_exists. exists (a, l). split; [assumption|]. cbn. rewrite eqd_refl. cbn. now apply mem_In. }
      congruence. }
  assert (A : forall y z, has_edge (s_dag s) y z -> reaches s' z x -> reaches s' y x).
  { intros y z E R. destruct (Dec' y z) as [E'|E'].
    - right. destruct R as [->|R]; [now apply t_step|]. eapply t_trans; [apply t_step; exact E'|exact R].
    - exfalso. apply (N z); [|assumption]. apply T. exists y. auto. }
  assert (B : forall y z, has_edge (s_dag s') y z -> reaches s' z x -> reaches s z x -> reaches s y x).
  { intros y z E R' R. destruct (Dec y z) as [E'|E'].
    - right. destruct R as [->|R]; [now apply t_step|]. eapply t_trans; [apply t_step; exact E'|exact R].
    - exfalso. apply (N z); [|assumption]. apply T. exists y. auto. }
  intros y. split.
  - intros [->|P]; [now left|]. unfold path in P. apply clos_trans_t1n in P.
    induction P as [y z E|y z w E P IH].
    + eapply A; [exact E|now left].
    + eapply A; [exact E|]. apply IH; assumption.
  - intros [->|P]; [now left|]. unfold path in P. apply clos_trans_t1n in P.
    enough (reaches s y x /\ reaches s' y x) by tauto.
    induction P as [y z E|y z w E P IH].
    + split; [eapply B; [exact E|now left|now left]|right; now apply t_step].
    + destruct (IH N A B) as [R R']. split; [eapply B; eauto|]. right.
      destruct R' as [->|R']; [now apply t_step|]. eapply t_trans; [apply t_step; exact E|exact R'].
Qed.

Lemma upstream_pubs_spec s t p : CInv s ->
  (In p (upstream_pubs t s) <-> exists tp, live_pub s p tp /\ reaches s tp t).
Proof.
  intros I. destruct (upstream_spec (s_dag s) t (c_dag _ _ _ I)) as [_ U].
  unfold upstream_pubs. rewrite in_flat_map. split.
  - intros [[q c] [A B]]. cbn [fst snd] in B. destruct c as [tp| | | |]; try (destruct B; fail).
    destruct (mem tp (upstream t (s_dag s))) eqn:M; [|destruct B].
    destruct B as [<-|B]; [|destruct B]. exists tp. split; [exact A|].
    apply mem_In, U in M as [->|M]; [now left|now right].
  - intros [tp [A R]]. exists (p, CPub tp). split; [exact A|]. cbn [fst snd].
    assert (M : mem tp (upstream t (s_dag s)) = true).
    { apply mem_In, U. destruct R as [->|R]; auto. }
    rewrite M. now left.
Qed.

Lemma downstream_subs_spec s t i x : CInv s ->
  (In (i, x) (downstream_subs t s) <-> live_sub s i x /\ reaches s t x).
Proof.
  intros I. destruct (downstream_spec (s_dag s) t (c_dag _ _ _ I)) as [_ U].
  unfold downstream_subs. rewrite in_flat_map. split.
  - intros [[q c] [A B]]. cbn [fst snd] in B. destruct c as [|ts| | |]; try (destruct B; fail).
    destruct (mem ts (downstream t (s_dag s))) eqn:M; [|destruct B].
    destruct B as [B|B]; [|destruct B]. injection B as -> ->. split; [exact A|].
    apply mem_In, U in M as [->|M]; [now left|now right].
  - intros [A R]. exists (i, CSub x). split; [exact A|]. cbn [fst snd].
    assert (M : mem x (downstream t (s_dag s)) = true).
    { apply mem_In, U. destruct R as [->|R]; auto. }
    rewrite M. now left.
Qed.

Lemma computed_exact s t : CInv s -> exact_for s t (upstream_pubs t s).
Proof.
  intros I p tp L. rewrite (upstream_pubs_spec s t p I). split.
  - intros [tp' [L' R]]. apply (live_get s p _ I) in L. apply (live_get s p _ I) in L'. congruence.
  - intros R. eauto.
Qed.

Lemma last_for_app i l j x : last_for i (l ++ [(j, x)]) = if Nat.eqb j i then Some x else last_for i l.
Proof.
  unfold last_for. rewrite rev_app_distr. cbn. now destruct (Nat.eqb j i).
Qed.

Lemma last_for_In i l x : last_for i l = Some x -> In (i, x) l.
Proof.
  unfold last_for. destruct (find _ _) as [[j y]|] eqn:F; [|discriminate]. cbn. intros [= <-].
  apply find_some in F as [A B]. apply Nat.eqb_eq in B. cbn in B. subst. now apply in_rev.
Qed.

(* ---- every subscriber is up to date or about to be ---- *)

Definition covers (s : server) (tk : task) (i : nat) (x : topic) : Prop :=
  In (i, x) (tk_subs tk) \/ exists u, In u (tk_topics tk) /\ reaches s u x.

Record NInv (n : net) : Prop := {
  ni_srv : CInv (n_srv n);
  ni_nodup : NoDup (keys (n_tasks n));
  ni_tid : forall k, In k (keys (n_tasks n)) -> k < n_tid n;
  ni_ids : forall i pubs p, In (i, pubs) (n_computed n) -> In p pubs -> p < s_next (n_srv n);
  ni_subs : forall k tk i t, get k (n_tasks n) = Some tk -> In (i, t) (tk_subs tk) ->
      i < s_next (n_srv n) /\ forall x, live_sub (n_srv n) i x -> x = t;
  ni_main : forall i x, live_sub (n_srv n) i x ->
      (exists k tk, get k (n_tasks n) = Some tk /\ covers (n_srv n) tk i x) \/
      (exists pubs, last_for i (n_computed n) = Some pubs /\ exact_for (n_srv n) x pubs)
}.

Lemma get_map {V W} (f : V -> W) k (l : list (nat * V)) :
  get k (map (fun p => (fst p, f (snd p))) l) = option_map f (get k l).
Proof.
  induction l as [|[j v] l IH]; cbn; [reflexivity|]. destruct (dec k j); [reflexivity|exact IH].
Qed.

Lemma keys_map {V W} (f : V -> W) (l : list (nat * V)) :
  keys (map (fun p => (fst p, f (snd p))) l) = keys l.
Proof. unfold keys. rewrite map_map. reflexivity. Qed.

(** Same tasks up to the updates in flight. *)
Definition shape (t : task) := (tk_topics t, tk_subs t).

Lemma NInv_shape n n' : n_srv n' = n_srv n -> n_tid n' = n_tid n -> n_computed n' = n_computed n ->
  NoDup (keys (n_tasks n')) -> (forall k, In k (keys (n_tasks n')) <-> In k (keys (n_tasks n))) ->
  (forall k, option_map shape (get k (n_tasks n')) = option_map shape (get k (n_tasks n))) ->
  NInv n -> NInv n'.
Proof.
  intros Es Et Ec Nd K Sh I. destruct I as [I1 I2 I3 I4 I5 I6].
  assert (Get : forall k tk, get k (n_tasks n') = Some tk ->
     exists tk0, get k (n_tasks n) = Some tk0 /\ shape tk0 = shape tk).
  { intros k tk G. specialize (Sh k). rewrite G in Sh. destruct (get k (n_tasks n)) as [tk0|]; [|discriminate].
    injection Sh as A B. exists tk0. split; [reflexivity|unfold shape; congruence]. }
  assert (Get' : forall k tk, get k (n_tasks n) = Some tk ->
     exists tk0, get k (n_tasks n') = Some tk0 /\ shape tk0 = shape tk).
  { intros k tk G. specialize (Sh k). rewrite G in Sh. destruct (get k (n_tasks n')) as [tk0|]; [|discriminate].
    injection Sh as A B. exists tk0. split; [reflexivity|unfold shape; congruence]. }
  constructor; rewrite ?Es, ?Et, ?Ec; try assumption.
  - intros k Ik. apply I3, K, Ik.
  - intros k tk i t G J. destruct (Get k tk G) as [tk0 [G0 Sh0]]. injection Sh0 as A B.
    eapply I5; [exact G0|]. now rewrite B.
  - intros i x L. destruct (I6 i x L) as [[k [tk [G C]]]|C]; [left|now right].
    destruct (Get' k tk G) as [tk0 [G0 Sh0]]. injection Sh0 as A B. exists k, tk0. split; [exact G0|].
    unfold covers in *. now rewrite A, B.
Qed.

Lemma shape_put n k tk t' : get k (n_tasks n) = Some tk -> shape t' = shape tk ->
  forall j, option_map shape (get j (put k t' (n_tasks n))) = option_map shape (get j (n_tasks n)).
Proof.
  intros G E j. rewrite get_put. destruct (dec j k) as [->|]; [|reflexivity]. rewrite G. cbn. now rewrite E.
Qed.

Lemma keys_put_same n (k : nat) (tk t' : task) : get k (n_tasks n) = Some tk ->
  forall j, In j (keys (put k t' (n_tasks n))) <-> In j (keys (n_tasks n)).
Proof.
  intros G j. rewrite keys_put. split; [|tauto]. intros [->|H]; [|assumption]. now apply get_Some_key in G.
Qed.

Lemma NInv_set_event i n : NInv n -> NInv (set_event i n).
Proof.
  intros I. eapply NInv_shape; [| | | | | |exact I]; try reflexivity; unfold set_event; cbn [n_tasks].
  - rewrite keys_map. apply (ni_nodup _ I).
  - now rewrite keys_map.
  - intros k. rewrite get_map. now destruct (get k (n_tasks n)).
Qed.

Lemma NInv_put k tk t' n cl wr : NInv n -> get k (n_tasks n) = Some tk -> shape t' = shape tk ->
  NInv (mkNet (n_srv n) (n_tid n) (put k t' (n_tasks n)) cl (n_computed n) wr).
Proof.
  intros I G E. eapply NInv_shape; [| | | | | |exact I]; try reflexivity; cbn [n_tasks].
  - apply NoDup_keys_put, (ni_nodup _ I).
  - eapply keys_put_same; eauto.
  - eapply shape_put; eauto.
Qed.

Lemma work_topics s l s' r w ts t : CInv s -> step s l = Some (s', r, w) ->
  (forall t, In t ts <-> target_changed (s_dag s) (s_dag s') t) -> w = work_for s l ts -> In t ts ->
  exists ts', w = [WTopics ts'] /\ In t ts'.
Proof.
  intros I E T W J. pose proof (proj1 (T t) J) as C.
  destruct l; cbn [work_for] in W;
    try (exists ts; split; [|assumption]; destruct ts; [destruct J|exact W]; fail);
    try (exists ts; split; assumption).
  - cbn in E. injection E as <- <- _. destruct C as [f [[A B]|[A B]]]; contradiction.
  - cbn in E. injection E as <- <- _. destruct C as [f [[A B]|[A B]]]; contradiction.
Qed.

(** A command. *)
Lemma NInv_cmd n l s' r w : NInv n -> step (n_srv n) l = Some (s', r, w) ->
  NInv (match w with
        | [] => mkNet s' (n_tid n) (n_tasks n) (n_clear n) (n_computed n) (n_written n)
        | x :: _ => mkNet s' (S (n_tid n)) (put (n_tid n) (task_for l s' x) (n_tasks n))
                          (n_clear n) (n_computed n) (n_written n)
        end).
Proof.
  intros I E. pose proof (ni_srv _ I) as C. set (s := n_srv n) in *.
  destruct (step_topology s l s' r w C E) as [ts [_ [T [W _]]]].
  destruct (step_clients s l s' r w C E) as [Le [Sb Pb]].
  pose proof (CInv_effect _ _ _ _ C (step_effect _ _ _ _ _ C E)) as C'.
  assert (Fresh : get (n_tid n) (n_tasks n) = None).
  { apply get_None. intros K. apply (ni_tid _ I) in K. lia. }
  (* the old obligations *)
  assert (Old : forall i x, live_sub s i x -> live_sub s' i x ->
    (exists k tk, get k (n_tasks n) = Some tk /\ covers s' tk i x) \/
    (exists x0 tl, w = x0 :: tl /\ covers s' (task_for l s' x0) i x) \/
    (exists pubs, last_for i (n_computed n) = Some pubs /\ exact_for s' x pubs)).
  { intros i x L L'. destruct (reaches_list_dec s' ts x C') as [[u [Iu Ru]]|N].
    - right; left. destruct (work_topics s l s' r w ts u C E T W Iu) as [ts' [Ew J]].
      exists (WTopics ts'), []. split; [exact Ew|]. right. exists u. split; assumption.
    - pose proof (reaches_stable s s' ts x T N) as St.
      destruct (ni_main _ I i x L) as [[k [tk [G Cv]]]|[pubs [La Ex]]].
      + left. exists k, tk. split; [exact G|]. destruct Cv as [Cv|[u [A B]]]; [now left|].
        right. exists u. split; [assumption|]. now apply St.
      + (* a new publisher may have to be added *)
        assert (Kp : (exists tp x0 tl, l = LPublish tp /\ w = x0 :: tl /\ covers s' (task_for l s' x0) i x) \/
                     forall p tp, live_pub s' p tp -> live_pub s p tp \/ (~ reaches s' tp x /\ p = s_next s)).
        { destruct l; try (right; intros p tp Lp; left; apply (live_get s p _ C);
            apply (live_get s' p _ C') in Lp; destruct (Pb p tp Lp) as [K|[K _]]; [assumption|discriminate]).
          destruct (reaches_dec s' t x C') as [R|R].
          - left. exists t, (WTopics [t]), []. split; [reflexivity|]. split; [exact W|].
            right. exists t. split; [now left|assumption].
          - right. intros p tp Lp. apply (live_get s' p _ C') in Lp. destruct (Pb p tp Lp) as [K|[K ->]].
            + left. now apply (live_get s p _ C).
            + right. injection K as <-. auto. }
        right. destruct Kp as [[tp [x0 [tl [_ K]]]]|Kp]; [left; eauto|right].
        exists pubs. split; [exact La|]. intros p tp Lp. destruct (Kp p tp Lp) as [Lp0|[Nr ->]].
        * rewrite (Ex p tp Lp0). apply St.
        * split; [|tauto]. intros Ip. apply last_for_In in La.
          pose proof (ni_ids _ I _ _ _ La Ip) as Lt. fold s in Lt. lia. }
  assert (SubsOk : forall k tk i t, get k (n_tasks n) = Some tk -> In (i, t) (tk_subs tk) ->
      i < s_next s' /\ forall x, live_sub s' i x -> x = t).
  { intros k tk i t G J. destruct (ni_subs _ I k tk i t G J) as [A B]. fold s in A. split; [lia|].
    intros x L. apply (live_get s' i _ C') in L. destruct (Sb i x L) as [K|[_ ->]]; [|lia].
    apply B. now apply (live_get s i _ C). }
  assert (IdsOk : forall i pubs p, In (i, pubs) (n_computed n) -> In p pubs -> p < s_next s').
  { intros i pubs p A B. pose proof (ni_ids _ I i pubs p A B) as K. fold s in K. lia. }
  destruct w as [|x0 wl].
  - constructor; cbn [n_srv n_tid n_tasks n_computed]; try assumption; try apply I.
    intros i x L. assert (L0 : live_sub s i x).
    { apply (live_get s' i _ C') in L. destruct (Sb i x L) as [K|[-> _]]; [now apply (live_get s i _ C)|].
      discriminate. }
    destruct (Old i x L0 L) as [K|[[x0 [tl [K _]]]|K]]; [now left|discriminate|now right].
  - constructor; cbn [n_srv n_tid n_tasks n_computed]; try assumption.
    + apply NoDup_keys_put, (ni_nodup _ I).
    + intros k. rewrite keys_put. intros [->|K]; [lia|]. apply (ni_tid _ I) in K. lia.
    + intros k tk i t G J. rewrite get_put in G. destruct (dec k (n_tid n)) as [->|]; [|eapply SubsOk; eauto].
      injection G as <-. destruct x0 as [ts0|id]; cbn [task_for tk_subs] in J; [destruct J|].
      destruct (get id (s_clients s')) as [[| | | |]|] eqn:Gi; try (destruct J; fail).
      destruct J as [J|J]; [|destruct J]. injection J as <- <-. split.
      * apply (c_ids _ _ _ C'). now apply get_Some_key in Gi.
      * intros x L. apply (live_get s' id _ C') in L. congruence.
    + intros i x L.
      assert (L0 : live_sub s i x \/ (l = LSubscribe x /\ i = s_next s)).
      { apply (live_get s' i _ C') in L. destruct (Sb i x L) as [K|K]; [left; now apply (live_get s i _ C)|now right]. }
      destruct L0 as [L0|[-> ->]].
      * destruct (Old i x L0 L) as [[k [tk [G K]]]|[[x1 [tl [K Cv]]]|K]]; [| |now right].
        -- left. exists k, tk. split; [|exact K]. rewrite get_put. destruct (dec k (n_tid n)) as [->|]; [congruence|assumption].
        -- injection K as <- _. left. exists (n_tid n), (task_for l s' x0). split; [apply get_put_eq|exact Cv].
      * cbn [work_for] in W. injection W as -> ->. left.
        exists (n_tid n), (task_for (LSubscribe x) s' (WSub (s_next s))). split; [apply get_put_eq|].
        left. cbn [task_for tk_subs]. apply (live_get s' _ _ C') in L. rewrite L. now left.
Qed.

Lemma NInv_step n a n' r : NInv n -> nstep n a = Some (n', r) -> NInv n'.
Proof.
  intros I E. destruct a as [l|k|k|k|k|k|k|i|k]; cbn [nstep] in E.
  - destruct (takes_lock l && locked n); [discriminate|].
    destruct (step (n_srv n) l) as [[[s' r0] w]|] eqn:S; [|discriminate].
    assert (S' : step (n_srv (match l with LClientGone i => set_event i n | _ => n end)) l = Some (s', r0, w))
      by (destruct l; exact S).
    assert (I' : NInv (match l with LClientGone i => set_event i n | _ => n end))
      by (destruct l; try exact I; now apply NInv_set_event).
    pose proof (NInv_cmd _ l s' r0 w I' S') as K. destruct w; injection E as <- <-; exact K.
  - destruct (get k (n_tasks n)) as [[[|t ts] [|] [|] b]|] eqn:G; try discriminate. injection E as <- <-.
    constructor; cbn [set_tasks n_srv n_tid n_tasks n_computed]; try apply I.
    + apply NoDup_keys_put, I.
    + intros j Hj. apply (ni_tid _ I). eapply keys_put_same; eauto.
    + intros j tk i x Gj J. rewrite get_put in Gj. destruct (dec j k) as [->|]; [|eapply (ni_subs _ I); eauto].
      injection Gj as <-. cbn [tk_subs] in J. apply (downstream_subs_spec _ _ _ _ (ni_srv _ I)) in J as [L R].
      pose proof (proj1 (live_get _ _ _ (ni_srv _ I)) L) as L'. split.
      * apply (c_ids _ _ _ (ni_srv _ I)). now apply get_Some_key in L'.
      * intros y Ly. apply (live_get _ _ _ (ni_srv _ I)) in Ly. congruence.
    + intros i x L. destruct (ni_main _ I i x L) as [[j [tk [Gj Cv]]]|K]; [left|now right].
      destruct (dec j k) as [->|Nj].
      * rewrite G in Gj. injection Gj as <-. destruct Cv as [Cv|[u [[<-|Iu] Ru]]]; [destruct Cv| |].
        -- eexists k, _. split; [apply get_put_eq|]. left. cbn [tk_subs].
           apply (downstream_subs_spec _ _ _ _ (ni_srv _ I)). auto.
        -- eexists k, _. split; [apply get_put_eq|]. right. exists u. auto.
      * exists j, tk. split; [|assumption]. rewrite get_put. now destruct (dec j k).
  - destruct (get k (n_tasks n)) as [[ts [|[i t] rs] [|] b]|] eqn:G; try discriminate. injection E as <- <-.
    destruct (ni_subs _ I k _ i t G (or_introl eq_refl)) as [Li Ui].
    constructor; cbn [n_srv n_tid n_tasks n_computed]; try apply I.
    + apply NoDup_keys_put, I.
    + intros j Hj. apply (ni_tid _ I). eapply keys_put_same; eauto.
    + intros j pubs p J Ip. apply in_app_iff in J as [J|[J|[]]]; [eapply (ni_ids _ I); eauto|].
      injection J as <- <-. apply (upstream_pubs_spec _ _ _ (ni_srv _ I)) in Ip as [tp [L _]].
      apply (live_get _ _ _ (ni_srv _ I)) in L. apply (c_ids _ _ _ (ni_srv _ I)). now apply get_Some_key in L.
    + intros j tk i0 x Gj J. rewrite get_put in Gj. destruct (dec j k) as [->|]; [|eapply (ni_subs _ I); eauto].
      injection Gj as <-. eapply (ni_subs _ I); [exact G|]. now right.
    + intros i0 x L. destruct (Nat.eq_dec i i0) as [<-|Ni].
      * right. exists (upstream_pubs t (n_srv n)). rewrite last_for_app, Nat.eqb_refl.
        split; [reflexivity|]. rewrite (Ui x L). apply computed_exact, I.
      * destruct (ni_main _ I i0 x L) as [[j [tk [Gj Cv]]]|[pubs [K1 K2]]].
        -- left. destruct (dec j k) as [->|Nj].
           ++ rewrite G in Gj. injection Gj as <-. eexists k, _. split; [apply get_put_eq|].
              destruct Cv as [[Cv|Cv]|Cv]; [congruence|left; exact Cv|right; exact Cv].
           ++ exists j, tk. split; [|assumption]. rewrite get_put. now destruct (dec j k).
        -- right. exists pubs. split; [|assumption]. rewrite last_for_app.
           destruct (Nat.eqb_spec i i0); [contradiction|assumption].
  - destruct (get k (n_tasks n)) as [t|] eqn:G; [|discriminate].
    destruct (tk_upd t) as [[i pubs []]|]; try discriminate.
    destruct (mem i (n_clear n)); injection E as <- <-.
    + unfold set_tasks. now apply NInv_put with (tk := t).
    + unfold write_update. now apply NInv_put with (tk := t).
  - destruct (get k (n_tasks n)) as [t|] eqn:G; [|discriminate].
    destruct (tk_upd t) as [[i pubs []]|]; try discriminate. injection E as <- <-.
    unfold write_update. now apply NInv_put with (tk := t).
  - destruct (get k (n_tasks n)) as [t|] eqn:G; [|discriminate].
    destruct (tk_upd t) as [[i pubs []]|]; try discriminate. injection E as <- <-.
    apply NInv_set_event. unfold drop_update, set_tasks. now apply NInv_put with (tk := t).
  - destruct (get k (n_tasks n)) as [t|] eqn:G; [|discriminate].
    destruct (tk_upd t) as [[i pubs []]|]; try discriminate; injection E as <- <-;
      try apply NInv_set_event; unfold drop_update, set_tasks; now apply NInv_put with (tk := t).
  - destruct (get i (s_clients (n_srv n))) as [[]|]; try discriminate. injection E as <- <-.
    now apply NInv_set_event.
  - destruct (get k (n_tasks n)) as [[[|] [|] [|] b]|] eqn:G; try discriminate. injection E as <- <-.
    constructor; cbn [set_tasks n_srv n_tid n_tasks n_computed]; try apply I.
    + apply NoDup_keys_del, I.
    + intros j Hj. apply (ni_tid _ I). now apply keys_del in Hj.
    + intros j tk i x Gj J. rewrite get_del in Gj. destruct (dec j k); [discriminate|]. eapply (ni_subs _ I); eauto.
    + intros i x L. destruct (ni_main _ I i x L) as [[j [tk [Gj Cv]]]|K]; [left|now right].
      exists j, tk. split; [|assumption]. rewrite get_del. destruct (dec j k) as [->|]; [|assumption].
      rewrite G in Gj. injection Gj as <-. destruct Cv as [Cv|[u [Cv _]]]; destruct Cv.
Qed.

Lemma CInv_new sl tl : CInv (new_server sl tl).
Proof. apply (CInv_run sl tl _ []). constructor. Qed.

Lemma NInv_run sl tl n h : nrun sl tl n h -> NInv n.
Proof.
  induction 1 as [|n h a n' r R IH E]; [|eapply NInv_step; eauto].
  constructor.
  - apply (CInv_new sl tl).
  - constructor.
  - intros k K. destruct K.
  - intros i pubs p K. destruct K.
  - intros k tk i t K. discriminate K.
  - intros i x K. destruct K.
Qed.

(** When nothing is under way, the last update computed for each live subscriber is exact. *)
Lemma quiet_computed sl tl n h : nrun sl tl n h -> quiet n ->
  forall i t, live_sub (n_srv n) i t ->
  exists pubs, last_for i (n_computed n) = Some pubs /\ exact_for (n_srv n) t pubs.
Proof.
  intros R Q i t L. destruct (ni_main _ (NInv_run _ _ _ _ R) i t L) as [[k [tk [G _]]]|K]; [|exact K].
  rewrite Q in G. discriminate.
Qed.

Lemma quiet_in_order sl tl n h : nrun sl tl n h -> quiet n ->
  forall i t pubs, live_sub (n_srv n) i t -> last_for i (n_written n) = last_for i (n_computed n) ->
  last_for i (n_written n) = Some pubs -> exact_for (n_srv n) t pubs.
Proof.
  intros R Q i t pubs L E K. destruct (quiet_computed _ _ _ _ R Q i t L) as [pubs' [A B]].
  rewrite E, A in K. injection K as <-. exact B.
Qed.

(* ---- one command at a time ---- *)

Definition upd_ok (n : net) (u : option update) : Prop :=
  match u with
  | None => n_written n = n_computed n /\ n_clear n = []
  | Some (mkUpd i pubs PStart) => n_computed n = n_written n ++ [(i, pubs)] /\ n_clear n = []
  | Some (mkUpd i pubs PWritten) => n_written n = n_computed n /\ n_clear n = [i]
  | Some (mkUpd i pubs PReleased) => n_written n = n_computed n /\ n_clear n = []
  | Some _ => False
  end.

Definition calm_inv (n : net) : Prop :=
  match n_tasks n with
  | [] => upd_ok n None
  | [(k, t)] => upd_ok n (tk_upd t)
  | _ => False
  end.

Lemma put_only (k : nat) (t t' : task) : put k t' [(k, t)] = [(k, t')].
Proof. cbn. now destruct (dec k k). Qed.

Lemma get_only (k j : nat) (t t' : task) : get k [(j, t)] = Some t' -> k = j /\ t = t'.
Proof.
  cbn. destruct (dec k j) as [->|]; [|discriminate]. intros [= ->]. auto.
Qed.

Lemma calm_event i n : calm_inv n -> calm_inv (set_event i n).
Proof.
  unfold calm_inv, set_event. cbn [n_tasks].
  destruct (n_tasks n) as [|[k t] [|]]; cbn; try contradiction.
  - unfold upd_ok; cbn. intros [A ->]. auto.
  - destruct t as [ts ss u b]; cbn. destruct u as [[j pubs p]|]; cbn; unfold upd_ok; cbn.
    + unfold wake_update; cbn. destruct (eqd j i) eqn:E; cbn.
      * apply (proj1 (eqd_true _ _)) in E as ->.
        destruct p; try contradiction; intros [A ->]; cbn; rewrite ?eqd_refl; cbn; auto.
      * destruct p; try contradiction; intros [A ->]; cbn; auto.
        destruct (eqd i j) eqn:E2; [|auto]. apply (proj1 (eqd_true _ _)) in E2 as ->. rewrite eqd_refl in E. discriminate.
    + intros [A ->]. auto.
Qed.

Lemma calm_cmd n l s' r w : calm_inv n -> step (n_srv n) l = Some (s', r, w) ->
  (w <> [] -> n_tasks n = []) ->
  calm_inv (match w with
        | [] => mkNet s' (n_tid n) (n_tasks n) (n_clear n) (n_computed n) (n_written n)
        | x :: _ => mkNet s' (S (n_tid n)) (put (n_tid n) (task_for l s' x) (n_tasks n))
                          (n_clear n) (n_computed n) (n_written n)
        end).
Proof.
  intros I E Q. destruct w as [|x w]; [exact I|].
  unfold calm_inv in *. rewrite Q in * by discriminate. cbn. destruct x; exact I.
Qed.

(** Only commands that take the lock ask for notifications. *)
Lemma work_takes_lock s l s' r w : step s l = Some (s', r, w) -> w <> [] -> takes_lock l = true.
Proof.
  intros E N. destruct l; cbn [takes_lock locks]; try reflexivity; exfalso; apply N; cbn [step] in E;
    repeat match type of E with
    | context [match ?x with _ => _ end] => destruct x
    end; try discriminate; now injection E as <- <- <-.
Qed.

Lemma calm_inv_step n a n' r : calm_inv n -> nstep n a = Some (n', r) ->
  (forall l, a = NCmd l -> takes_lock l = true -> quiet n) -> calm_inv n'.
Proof.
  intros I E Q. destruct a as [l|k|k|k|k|k|k|i|k]; cbn [nstep] in E.
  - specialize (Q l eq_refl). destruct (takes_lock l && locked n); [discriminate|].
    destruct (step (n_srv n) l) as [[[s' r0] w]|] eqn:S; [|discriminate].
    pose proof (work_takes_lock _ _ _ _ _ S) as WL.
    set (n1 := match l with LClientGone i => set_event i n | _ => n end) in *.
    assert (S' : step (n_srv n1) l = Some (s', r0, w)) by (unfold n1; destruct l; exact S).
    assert (I' : calm_inv n1) by (unfold n1; destruct l; try exact I; now apply calm_event).
    assert (Q' : w <> [] -> n_tasks n1 = []).
    { intros Nw. pose proof (Q (WL Nw)) as K. unfold quiet in K. unfold n1.
      destruct l; try exact K. cbn. now rewrite K. }
    pose proof (calm_cmd _ l s' r0 w I' S' Q') as K. destruct w; injection E as <- <-; exact K.
  - destruct (get k (n_tasks n)) as [[[|t ts] [|] [|] b]|] eqn:G; try discriminate. injection E as <- <-.
    unfold calm_inv in *. cbn [set_tasks n_tasks].
    destruct (n_tasks n) as [|[j tk] [|]]; [discriminate G| |destruct I].
    apply get_only in G as [-> ->]. rewrite put_only. exact I.
  - destruct (get k (n_tasks n)) as [[ts [|[i t] rs] [|] b]|] eqn:G; try discriminate. injection E as <- <-.
    unfold calm_inv in *. cbn [n_tasks].
    destruct (n_tasks n) as [|[j tk] [|]]; [discriminate G| |destruct I].
    apply get_only in G as [-> ->]. rewrite put_only. cbn in *. destruct I as [-> ->]. auto.
  - destruct (get k (n_tasks n)) as [t|] eqn:G; [|discriminate].
    destruct (tk_upd t) as [[i pubs []]|] eqn:U; try discriminate.
    unfold calm_inv in I. destruct (n_tasks n) as [|[j tk] [|]] eqn:T; [discriminate G| |destruct I].
    apply get_only in G as [-> ->]. rewrite U in I. destruct I as [A B]. rewrite B in E. cbn [mem existsb] in E.
    injection E as <- <-. unfold calm_inv, write_update. cbn [n_tasks]. rewrite T, put_only.
    unfold upd_ok; cbn. rewrite A, B. auto.
  - destruct (get k (n_tasks n)) as [t|] eqn:G; [|discriminate].
    destruct (tk_upd t) as [[i pubs []]|] eqn:U; try discriminate.
    exfalso. unfold calm_inv in I. destruct (n_tasks n) as [|[j tk] [|]] eqn:T; [discriminate G| |exact I].
    apply get_only in G as [-> ->]. rewrite U in I. exact I.
  - destruct (get k (n_tasks n)) as [t|] eqn:G; [|discriminate].
    destruct (tk_upd t) as [[i pubs []]|] eqn:U; try discriminate. injection E as <- <-.
    apply calm_event. unfold calm_inv in *. cbn [drop_update set_tasks n_tasks].
    destruct (n_tasks n) as [|[j tk] [|]] eqn:T; [discriminate G| |destruct I].
    apply get_only in G as [-> ->]. rewrite U in I. rewrite put_only. exact I.
  - destruct (get k (n_tasks n)) as [t|] eqn:G; [|discriminate].
    unfold calm_inv in I. destruct (n_tasks n) as [|[j tk] [|]] eqn:T; [discriminate G| |destruct I].
    apply get_only in G as [-> ->].
    destruct (tk_upd t) as [[i pubs []]|] eqn:U; try discriminate; try contradiction; injection E as <- <-;
      unfold calm_inv, set_event, drop_update; cbn [n_tasks set_tasks]; rewrite T, put_only; cbn in *;
      destruct I as [A B]; unfold upd_ok; cbn; rewrite A, B; cbn; rewrite ?eqd_refl; auto.
  - destruct (get i (s_clients (n_srv n))) as [[]|]; try discriminate. injection E as <- <-.
    now apply calm_event.
  - destruct (get k (n_tasks n)) as [[[|] [|] [|] b]|] eqn:G; try discriminate. injection E as <- <-.
    unfold calm_inv in *. cbn [set_tasks n_tasks].
    destruct (n_tasks n) as [|[j tk] [|]] eqn:T; [discriminate G| |destruct I].
    apply get_only in G as [-> ->]. cbn. rewrite eqd_refl. cbn. exact I.
Qed.

Lemma calm_calm sl tl n : calm sl tl n -> calm_inv n /\ exists h, nrun sl tl n h.
Proof.
  induction 1 as [|n a n' r C [I [h R]] E Q].
  - split; [cbn; auto|]. exists []. constructor.
  - split; [eapply calm_inv_step; eauto|]. exists (h ++ [a]). econstructor; eauto.
Qed.

Lemma calm_wired sl tl n : calm sl tl n -> quiet n -> all_wired n.
Proof.
  intros C Q i t L. destruct (calm_calm _ _ _ C) as [I [h R]].
  destruct (quiet_computed _ _ _ _ R Q i t L) as [pubs [A B]]. exists pubs. split; [|exact B].
  unfold calm_inv in I. rewrite Q in I. destruct I as [-> _]. exact A.
Qed.

(** Without session commands that change the graph, the lock keeps commands apart. *)
Lemma persistent_calm sl tl n h : nrun sl tl n h -> (forall a, In a h -> ~ session_edge_command a) ->
  calm sl tl n /\ forall k tk, In (k, tk) (n_tasks n) -> tk_locks tk = true.
Proof.
  induction 1 as [|n h a n' r R IH E]; intros Ns.
  - split; [constructor|]. intros k tk J. destruct J.
  - destruct IH as [C Lk]; [intros b Ib; apply Ns; apply in_app_iff; now left|].
    assert (Na : ~ session_edge_command a) by (apply Ns; apply in_app_iff; right; now left).
    assert (Ev : forall i n1, n_tasks n1 = n_tasks n ->
       forall k tk, In (k, tk) (n_tasks (set_event i n1)) -> tk_locks tk = true).
    { intros i n1 T k tk J. cbn [set_event n_tasks] in J. rewrite T in J.
      apply in_map_iff in J as [[k0 t0] [J1 J2]]. injection J1 as <- <-. exact (Lk _ _ J2). }
    assert (Pt : forall (j : nat) (t t' : task) tasks, (forall k tk, In (k, tk) tasks -> tk_locks tk = true) ->
       tk_locks t' = true -> forall k tk, In (k, tk) (put j t' tasks) -> tk_locks tk = true).
    { clear. intros j t t' tasks H Ht. induction tasks as [|[i ti] l IH]; intros k tk J; cbn in J.
      - destruct J as [J|J]; [injection J as <- <-; exact Ht|destruct J].
      - destruct (dec j i).
        + destruct J as [J|J]; [injection J as <- <-; exact Ht|]. apply (H k). now right.
        + destruct J as [J|J]; [injection J as <- <-; apply (H i); now left|].
          apply IH in J; [exact J|]. intros k0 tk0 J0. apply (H k0). now right. }
    assert (Ev2 : forall i n1, (forall k tk, In (k, tk) (n_tasks n1) -> tk_locks tk = true) ->
       forall k tk, In (k, tk) (n_tasks (set_event i n1)) -> tk_locks tk = true).
    { clear. intros i n1 H k tk J. cbn [set_event n_tasks] in J.
      apply in_map_iff in J as [[k0 t0] [J1 J2]]. injection J1 as <- <-. exact (H _ _ J2). }
    assert (Gl : forall k t, get k (n_tasks n) = Some t -> tk_locks t = true).
    { intros k t G. apply get_In in G. eauto. }
    split.
    + econstructor; [exact C|exact E|]. intros l -> Tl. cbn [nstep] in E. rewrite Tl in E. cbn [andb] in E.
      destruct (locked n) eqn:Lo; [discriminate|]. unfold quiet. unfold locked in Lo.
      destruct (n_tasks n) as [|[k tk] ts]; [reflexivity|]. cbn in Lo.
      rewrite (Lk k tk (or_introl eq_refl)) in Lo. discriminate.
    + destruct a as [l|k|k|k|k|k|k|i|k]; cbn [nstep] in E.
      * destruct (takes_lock l && locked n); [discriminate|].
        destruct (step (n_srv n) l) as [[[s' r0] w]|] eqn:S; [|discriminate].
        pose proof (work_takes_lock _ _ _ _ _ S) as WL.
        assert (Tl : w <> [] -> locks l = true).
        { intros Nw. specialize (WL Nw). destruct l; try exact WL; exfalso; apply Na; unfold session_edge_command;
            exists sid; eauto 8. }
        destruct w as [|x w]; injection E as <- <-; cbn [n_tasks].
        -- destruct l; try exact Lk. now apply Ev.
        -- eapply Pt; [exact (task_for l s' x)|destruct l; try exact Lk; now apply Ev|].
           destruct x; cbn; apply Tl; discriminate.
      * destruct (get k (n_tasks n)) as [[[|t ts] [|] [|] b]|] eqn:G; try discriminate. injection E as <- <-.
        cbn [set_tasks n_tasks]. eapply Pt; [exact (mkTask [] [] None b)|exact Lk|exact (Gl _ _ G)].
      * destruct (get k (n_tasks n)) as [[ts [|[i t] rs] [|] b]|] eqn:G; try discriminate. injection E as <- <-.
        cbn [n_tasks]. eapply Pt; [exact (mkTask [] [] None b)|exact Lk|exact (Gl _ _ G)].
      * destruct (get k (n_tasks n)) as [t|] eqn:G; [|discriminate].
        destruct (tk_upd t) as [[i pubs []]|]; try discriminate.
        destruct (mem i (n_clear n)); injection E as <- <-; cbn [set_tasks write_update n_tasks];
          (eapply Pt; [exact t|exact Lk|exact (Gl _ _ G)]).
      * destruct (get k (n_tasks n)) as [t|] eqn:G; [|discriminate].
        destruct (tk_upd t) as [[i pubs []]|]; try discriminate. injection E as <- <-.
        cbn [write_update n_tasks]. eapply Pt; [exact t|exact Lk|exact (Gl _ _ G)].
      * destruct (get k (n_tasks n)) as [t|] eqn:G; [|discriminate].
        destruct (tk_upd t) as [[i pubs []]|]; try discriminate. injection E as <- <-.
        apply Ev2. cbn [drop_update set_tasks n_tasks]. eapply Pt; [exact t|exact Lk|exact (Gl _ _ G)].
      * destruct (get k (n_tasks n)) as [t|] eqn:G; [|discriminate].
        destruct (tk_upd t) as [[i pubs []]|]; try discriminate; injection E as <- <-;
          try apply Ev2; cbn [drop_update set_tasks n_tasks];
          (eapply Pt; [exact t|exact Lk|exact (Gl _ _ G)]).
      * destruct (get i (s_clients (n_srv n))) as [[]|]; try discriminate. injection E as <- <-. now apply Ev.
      * destruct (get k (n_tasks n)) as [[[|] [|] [|] b]|] eqn:G; try discriminate. injection E as <- <-.
        cbn [set_tasks n_tasks]. intros j tk J. apply In_del in J as [_ J]. eauto.
Qed.

(* ---- notifications end ---- *)

Definition phase_weight (u : option update) : nat :=
  match u with None => 0 | Some (mkUpd _ _ PStart) => 2 | Some _ => 1 end.

Definition weight (s : server) (t : task) : nat :=
  1 + phase_weight (tk_upd t) + 3 * length (tk_subs t) +
  list_sum (map (fun u => 1 + 3 * length (downstream_subs u s)) (tk_topics t)).

Fixpoint sumf {V} (f : V -> nat) (l : list (nat * V)) : nat :=
  match l with [] => 0 | p :: r => f (snd p) + sumf f r end.

Definition total (n : net) : nat := sumf (weight (n_srv n)) (n_tasks n).

Lemma sum_put {V} (f : V -> nat) (l : list (nat * V)) k v v' : get k l = Some v ->
  sumf f (put k v' l) + f v = sumf f l + f v'.
Proof.
  induction l as [|[j w] l IH]; cbn [get put sumf]; [discriminate|]. destruct (dec k j) as [E|E].
  - intros [= ->]. cbn [sumf snd]. lia.
  - intros G. cbn [sumf snd]. specialize (IH G). lia.
Qed.

Lemma sum_map {V} (f : V -> nat) (g : V -> V) (l : list (nat * V)) : (forall v, f (g v) = f v) ->
  sumf f (map (fun p => (fst p, g (snd p))) l) = sumf f l.
Proof. intros H. induction l as [|[j w] l IH]; cbn [map sumf snd]; [reflexivity|]. now rewrite H, IH. Qed.

Lemma sum_del {V} (f : V -> nat) (l : list (nat * V)) k v : get k l = Some v -> 1 <= f v ->
  sumf f (del k l) < sumf f l.
Proof.
  assert (Le : forall l', sumf f (del k l') <= sumf f l').
  { unfold del. induction l' as [|[j w] l' IH]; cbn [filter sumf]; [lia|]. destruct (negb _); cbn [sumf]; lia. }
  intros G H. revert G.
  induction l as [|[j w] l IH]; cbn [get]; [discriminate|]. unfold del in *. cbn [filter fst].
  unfold eqd at 1. destruct (dec k j) as [E|E]; cbn [negb sumf snd].
  - intros [= ->]. specialize (Le l). lia.
  - intros G. specialize (IH G). lia.
Qed.

Lemma weight_wake s i t : weight s (wake_task i t) = weight s t.
Proof.
  destruct t as [ts ss [[j pubs p]|] b]; unfold weight, wake_task; cbn [tk_upd tk_subs tk_topics option_map]; [|reflexivity].
  unfold wake_update; cbn. destruct (eqd j i); [|reflexivity]. now destruct p.
Qed.

Lemma total_event i n : total (set_event i n) = total n.
Proof.
  unfold total, set_event. cbn [n_srv n_tasks]. apply (sum_map (weight (n_srv n)) (wake_task i)).
  apply weight_wake.
Qed.

Lemma can_progress n : NInv n -> n_tasks n <> [] ->
  exists a n' r, nstep n a = Some (n', r) /\ n_srv n' = n_srv n /\ total n' < total n.
Proof.
  intros I N. destruct (n_tasks n) as [|[k t] rest] eqn:T; [congruence|]. clear N.
  assert (G : get k (n_tasks n) = Some t) by (rewrite T; cbn; now destruct (dec k k)).
  assert (Pt : forall t', weight (n_srv n) t' < weight (n_srv n) t ->
     sumf (weight (n_srv n)) (put k t' (n_tasks n)) < total n).
  { intros t' L. unfold total. pose proof (sum_put (weight (n_srv n)) (n_tasks n) k t t' G). lia. }
  destruct t as [ts ss [[i pubs p]|] b] eqn:Et.
  - assert (Cs : p = PStart \/ p <> PStart) by (destruct p; auto; right; discriminate). destruct Cs as [->|Np].
    + exists (NEnter k). cbn [nstep]. rewrite G. cbn [tk_upd].
      destruct (mem i (n_clear n)); eexists _, _; (split; [reflexivity|]); (split; [reflexivity|]);
        unfold total, write_update, set_tasks; cbn [n_srv n_tasks]; apply Pt; unfold weight; cbn; lia.
    + exists (NTimeout k). cbn [nstep]. rewrite G. cbn [tk_upd].
      destruct p; try congruence; eexists _, _; (split; [reflexivity|]); (split; [reflexivity|]);
        rewrite ?total_event; unfold total, drop_update, set_tasks; cbn [n_srv n_tasks]; apply Pt; unfold weight; cbn; lia.
  - destruct ss as [|[i x] ss].
    + destruct ts as [|u ts].
      * exists (NEnd k). cbn [nstep]. rewrite G. eexists _, _. split; [reflexivity|]. split; [reflexivity|].
        unfold total, set_tasks; cbn [n_srv n_tasks]. eapply sum_del; [exact G|]. unfold weight. lia.
      * exists (NTopic k). cbn [nstep]. rewrite G. eexists _, _. split; [reflexivity|]. split; [reflexivity|].
        unfold total, set_tasks; cbn [n_srv n_tasks]. apply Pt. unfold weight. cbn. lia.
    + exists (NCompute k). cbn [nstep]. rewrite G. eexists _, _. split; [reflexivity|]. split; [reflexivity|].
      unfold total; cbn [n_srv n_tasks]. apply Pt. unfold weight. cbn. lia.
Qed.

Lemma notifications_finish sl tl n h : nrun sl tl n h ->
  exists n' h', nrun sl tl n' (h ++ h') /\ n_srv n' = n_srv n /\ quiet n'.
Proof.
  remember (total n) as m eqn:M. revert n h M. induction m as [m IH] using lt_wf_ind. intros n h M R.
  destruct (n_tasks n) eqn:T.
  - exists n, []. rewrite app_nil_r. auto.
  - destruct (can_progress n (NInv_run _ _ _ _ R)) as [a [n1 [r [E [S L]]]]]; [congruence|].
    destruct (IH (total n1)) with (n := n1) (h := h ++ [a]) as [n' [h' [A [B C]]]]; [lia|reflexivity|econstructor; eauto|].
    exists n', (a :: h'). split; [|split; [congruence|assumption]].
    replace (h ++ a :: h') with ((h ++ [a]) ++ h'); [assumption|]. now rewrite <- app_assoc.
Qed.
