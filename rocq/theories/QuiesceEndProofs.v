(* The pipeline comes to rest by itself. *)

From Coq Require Import List Arith Bool Lia.
From Verif Require Import Dict QuiesceModel QuiesceSpec QuiesceProofs.
Import ListNotations.

Fixpoint sum (f : nat -> nat) (l : list nat) : nat := match l with [] => 0 | x :: r => f x + sum f r end.

Lemma sum_ext f g l : (forall x, In x l -> f x = g x) -> sum f l = sum g l.
Proof. induction l as [|x l IH]; intros H; cbn; [reflexivity|]. rewrite (H x) by now left. rewrite IH by (intros y I; apply H; now right). reflexivity. Qed.

Lemma sum_at f g k l : NoDup l -> In k l -> (forall x, x <> k -> g x = f x) -> sum g l + f k = sum f l + g k.
Proof.
  induction l as [|x l IH]; intros ND I E; [destruct I|]. inversion ND as [|y ys NI ND' E1]. subst. cbn. destruct I as [->|I].
  - assert (X : sum g l = sum f l) by (apply sum_ext; intros y Iy; apply E; intros ->; contradiction). lia.
  - assert (NE : x <> k) by (intros ->; contradiction). rewrite (E x NE). specialize (IH ND' I E). lia.
Qed.

Lemma sum_plus f g l : sum (fun x => f x + g x) l = sum f l + sum g l.
Proof. induction l as [|x l IH]; cbn; lia. Qed.

Lemma sum_filter f (b : nat -> bool) l : sum (fun x => if b x then f x else 0) l = sum f (filter b l).
Proof. induction l as [|x l IH]; cbn; [reflexivity|]. destruct (b x); cbn; lia. Qed.

Lemma sum_const c l : sum (fun _ => c) l = c * length l.
Proof. induction l as [|x l IH]; cbn; lia. Qed.

Section End_.
Context (cfg : config) (PL : pipeline cfg) (UF : upstream_first cfg).

(** How many steps a message on a publisher costs, at most. *)
Fixpoint weights (l : list nat) : nat -> nat :=
  match l with
  | [] => fun _ => 0
  | p :: r => upd (weights r) p (sum (fun t => 3 + sum (fun q => 2 + weights r q) (c_outs cfg t)) (subs cfg p))
  end.
Definition W : nat -> nat := weights (c_pubs cfg).
Definition todo_cost (l : list nat) : nat := sum (fun q => 2 + W q) l.
Definition task_cost (t : nat) : nat := 3 + todo_cost (c_outs cfg t).

Lemma weights_app a l q : (forall x, In x a -> x <> q) -> weights (a ++ l) q = weights l q.
Proof. induction a as [|x a IH]; intros N; cbn; [reflexivity|]. rewrite upd_neq; [apply IH; intros y I; apply N; now right|]. intros ->. apply (N x); [now left|reflexivity]. Qed.

Lemma W_eq p : In p (c_pubs cfg) -> W p = sum task_cost (subs cfg p).
Proof.
  intros I. destruct PL as (ND & _). apply in_split in I as (a & l & E). unfold W. rewrite E in *.
  assert (ND' := ND). rewrite weights_app.
  - cbn. rewrite upd_eq. apply sum_ext. intros t It. unfold task_cost, todo_cost. apply (f_equal (fun x => 3 + x)). apply sum_ext. intros q Iq. apply (f_equal (fun x => 2 + x)). unfold W. rewrite E.
    apply (in_subs cfg) in It as [It Ct]. rewrite <- E in ND. pose proof (before_split cfg p q a l ND E (UF t p q It Ct Iq)) as Il.
    symmetry. change (a ++ p :: l) with (a ++ [p] ++ l). rewrite app_assoc. apply weights_app. intros x Ix ->.
    change (a ++ p :: l) with (a ++ [p] ++ l) in ND'. rewrite app_assoc in ND'. clear - ND' Ix Il. induction (a ++ [p]) as [|y z IH]; [destruct Ix|]. inversion ND' as [|u v N1 N2]. subst. destruct Ix as [->|Ix]; [|exact (IH N2 Ix)]. apply N1. apply in_or_app. now right.
  - intros x Ix ->. apply NoDup_remove_2 in ND'. apply ND'. apply in_or_app. now left.
Qed.

Definition activity_cost (a : activity) : nat :=
  match a with
  | Idle => 0
  | Busy _ todo w => 1 + todo_cost todo + (match todo with [] => 0 | _ => if w then 0 else 1 end)
  end.
Definition at_task (s : state) (t : nat) : nat := activity_cost (s_task s t) + length (s_queue s t) * task_cost t.
Definition at_pub (s : state) (p : nat) : nat := 2 * length (s_inbox s p) + match s_drain s p with NotSyncing => 0 | _ => 1 end.
Definition at_server (s : state) : nat :=
  match s_lock s with Some (_, rest, _) => 1 + 4 * length rest | None => 0 end + (2 + 4 * length (c_pubs cfg)) * length (s_calls s).
Definition cost (s : state) : nat := sum (at_task s) (c_tasks cfg) + sum (at_pub s) (c_pubs cfg) + at_server s.

Lemma cost_tasks s s' : Base cfg s -> (forall t, In t (c_tasks cfg) -> at_task s' t = at_task s t) -> sum (at_task s') (c_tasks cfg) = sum (at_task s) (c_tasks cfg).
Proof. intros _ H. now apply sum_ext. Qed.

Lemma send_cost s t m q todo w : Base cfg s -> s_task s t = Busy m (q :: todo) w ->
  let s' := set_task (upd (s_task s) t (Busy m todo false)) (send cfg q s) in
  sum (at_task s') (c_tasks cfg) < sum (at_task s) (c_tasks cfg).
Proof.
  intros B E s'. destruct (b_task _ _ B _ _ _ _ E) as (It & IO & _). destruct PL as (NDp & NDt & P1 & P2 & _).
  assert (Wq : W q = sum task_cost (subs cfg q)) by (apply W_eq, (P2 t q It), IO; now left).
  (* first the queues, then the task *)
  set (s1 := send cfg q s).
  assert (Q : sum (at_task s1) (c_tasks cfg) = sum (at_task s) (c_tasks cfg) + W q).
  { rewrite Wq. unfold subs. rewrite <- sum_filter, <- sum_plus. apply sum_ext. intros u Iu. unfold at_task, s1, send. cbn [s_task s_queue].
    replace (mem u (subs cfg q)) with (match c_src cfg u with Some q0 => q0 =? q | None => false end).
    - destruct (c_src cfg u) as [q0|]; [destruct (q0 =? q)|]; [rewrite app_length; cbn [length]; lia|lia|lia].
    - destruct (mem u (subs cfg q)) eqn:M.
      + apply mem_In, in_subs in M as [_ ->]. apply Nat.eqb_refl.
      + apply mem_false in M. rewrite in_subs in M. destruct (c_src cfg u) as [q0|]; [|reflexivity]. destruct (Nat.eqb_spec q0 q) as [->|]; [|reflexivity]. destruct M. auto. }
  assert (T : sum (at_task s') (c_tasks cfg) + at_task s1 t = sum (at_task s1) (c_tasks cfg) + at_task s' t).
  { apply sum_at; [exact NDt|exact It|]. intros x N. unfold at_task, s', s1. cbn. now rewrite upd_neq. }
  assert (A : at_task s' t + 1 + W q <= at_task s1 t).
  { unfold at_task, s', s1. cbn [s_task s_queue set_task send]. rewrite upd_eq, E. unfold activity_cost, todo_cost. cbn [sum]. destruct todo, w; cbn [sum]; lia. }
  lia.
Qed.

Lemma task_cost_step s s' t : NoDup (c_tasks cfg) -> In t (c_tasks cfg) -> (forall u, u <> t -> at_task s' u = at_task s u) -> at_task s' t < at_task s t -> sum (at_task s') (c_tasks cfg) < sum (at_task s) (c_tasks cfg).
Proof. intros ND I E L. pose proof (sum_at (at_task s) (at_task s') t (c_tasks cfg) ND I E). lia. Qed.

Lemma del_length (i : nat) (c : command) (d : list (nat * command)) : get i d = Some c -> S (length (del i d)) <= length d.
Proof.
  assert (L : forall x : list (nat * command), length (del i x) <= length x).
  { unfold del. induction x as [|e x IH]; cbn; [lia|]. destruct (negb _); cbn; lia. }
  induction d as [|[k v] d IH]; [discriminate|]. specialize (L d). unfold del in *. cbn. unfold eqd at 1. cbn [fst]. destruct (dec i k) as [->|N]; intros H; cbn; [lia|]. specialize (IH H). lia.
Qed.

Lemma pubs_at s s' p : NoDup (c_pubs cfg) -> In p (c_pubs cfg) -> (forall u, u <> p -> at_pub s' u = at_pub s u) -> sum (at_pub s') (c_pubs cfg) + at_pub s p = sum (at_pub s) (c_pubs cfg) + at_pub s' p.
Proof. intros ND I E. exact (sum_at (at_pub s) (at_pub s') p (c_pubs cfg) ND I E). Qed.

Lemma cost_step s l s' : Good cfg s -> by_itself l = true -> step cfg s l = Some s' -> cost s' < cost s.
Proof.
  intros G BI H. pose proof (g_base _ _ G) as B. pose proof PL as (NDp & NDt & P1 & P2 & _). unfold cost.
  assert (KT : forall x t, s' = x -> In t (c_tasks cfg) -> s_lock x = s_lock s -> s_calls x = s_calls s -> s_inbox x = s_inbox s -> (forall p, at_pub x p = at_pub s p) -> (forall u, u <> t -> s_task x u = s_task s u /\ s_queue x u = s_queue s u) ->
            at_task x t < at_task s t -> sum (at_task s') (c_tasks cfg) + sum (at_pub s') (c_pubs cfg) + at_server s' < sum (at_task s) (c_tasks cfg) + sum (at_pub s) (c_pubs cfg) + at_server s).
  { intros x t -> It L C _ D N A. assert (X : sum (at_task x) (c_tasks cfg) < sum (at_task s) (c_tasks cfg)) by (apply (task_cost_step s x t NDt It); [intros u Nu; destruct (N u Nu) as [X1 X2]; unfold at_task; now rewrite X1, X2|exact A]).
    rewrite (sum_ext (at_pub x) (at_pub s)) by (intros p _; apply D). unfold at_server. rewrite L, C. lia. }
  assert (KS : forall x q m t todo w, s' = set_task (upd (s_task s) t (Busy m todo false)) x -> x = send cfg q s -> s_task s t = Busy m (q :: todo) w ->
            sum (at_task s') (c_tasks cfg) + sum (at_pub s') (c_pubs cfg) + at_server s' < sum (at_task s) (c_tasks cfg) + sum (at_pub s) (c_pubs cfg) + at_server s).
  { intros x q m t todo w -> -> E. pose proof (send_cost s t m q todo w B E) as X. cbn zeta in X.
    rewrite (sum_ext (at_pub (set_task (upd (s_task s) t (Busy m todo false)) (send cfg q s))) (at_pub s)) by reflexivity.
    change (at_server (set_task (upd (s_task s) t (Busy m todo false)) (send cfg q s))) with (at_server s). lia. }
  assert (KP : forall x p, s' = x -> In p (c_pubs cfg) -> s_task x = s_task s -> s_queue x = s_queue s -> (forall u, u <> p -> at_pub x u = at_pub s u) ->
            at_pub x p + at_server x < at_pub s p + at_server s -> sum (at_task s') (c_tasks cfg) + sum (at_pub s') (c_pubs cfg) + at_server s' < sum (at_task s) (c_tasks cfg) + sum (at_pub s) (c_pubs cfg) + at_server s).
  { intros x p -> Ip T Q N A. rewrite (sum_ext (at_task x) (at_task s)) by (intros t _; unfold at_task; now rewrite T, Q). pose proof (pubs_at s x p NDp Ip N). lia. }
  destruct l; cbn in BI; try discriminate; cbn [step] in H.
  - destruct (s_task s t) eqn:E; [|discriminate]. destruct (s_queue s t) as [|m r] eqn:Q; [discriminate|]. injection H as <-.
    assert (NE : mine s t <> []) by (unfold mine; rewrite E, Q; discriminate). destruct (b_mine _ _ B t NE) as [It _].
    eapply KT; [reflexivity|exact It|reflexivity|reflexivity|reflexivity|reflexivity|intros u N; cbn; now rewrite !upd_neq by exact N|].
    unfold at_task. cbn [s_task s_queue set_task set_queue]. rewrite !upd_eq, E, Q. unfold activity_cost, task_cost, todo_cost. cbn [length]. destruct (c_outs cfg t); cbn [sum]; lia.
  - destruct (s_task s t) as [|m [|q todo] [|]] eqn:E; try discriminate. destruct (s_run s q); [|discriminate]. destruct (available cfg q s); injection H as <-; [exact (KS _ q m t todo false eq_refl eq_refl E)|].
    destruct (b_task _ _ B _ _ _ _ E) as (It & _). eapply KT; [reflexivity|exact It|reflexivity|reflexivity|reflexivity|reflexivity|intros u N; cbn; now rewrite !upd_neq by exact N|].
    unfold at_task. cbn [s_task s_queue set_task]. rewrite !upd_eq, E. unfold activity_cost. lia.
  - destruct (s_task s t) as [|m [|q todo] [|]] eqn:E; try discriminate. destruct (available cfg q s); [|discriminate]. injection H as <-. exact (KS _ q m t todo true eq_refl eq_refl E).
  - destruct (s_task s t) as [|[m|] [|q todo] w] eqn:E; try discriminate; destruct (b_task _ _ B _ _ _ _ E) as (It & _).
    + destruct (c_src cfg t) as [p0|]; [|discriminate]. injection H as <-.
      eapply KT; [reflexivity|exact It|reflexivity|reflexivity|reflexivity| |intros u N; cbn; now rewrite !upd_neq by exact N|].
      * intros p. unfold at_pub. cbn [s_inbox s_drain set_task set_drain set_held]. unfold upd. destruct (Nat.eqb_spec p p0) as [->|]; [|reflexivity]. unfold wake_sync. destruct (s_drain s p0); [reflexivity| |reflexivity]. destruct (any_held _ _); reflexivity.
      * unfold at_task. cbn [s_task s_queue set_task set_drain set_held]. rewrite !upd_eq, E. unfold activity_cost. lia.
    + injection H as <-. eapply KT; [reflexivity|exact It|reflexivity|reflexivity|reflexivity|reflexivity|intros u N; cbn; now rewrite !upd_neq by exact N|].
      unfold at_task. cbn [s_task s_queue set_task]. rewrite !upd_eq, E. unfold activity_cost. lia.
  - destruct (s_lock s) eqn:L; [discriminate|]. destruct (get i (s_calls s)) as [c|] eqn:C; [|discriminate]. pose proof (del_length i c _ C) as D.
    assert (TA : forall c, sum (at_pub (tell_all cfg c (set_calls (del i (s_calls s)) s))) (c_pubs cfg) <= sum (at_pub s) (c_pubs cfg) + 2 * length (c_pubs cfg)).
    { intros c'. rewrite <- sum_const, <- sum_plus. apply Nat.eq_le_incl. apply sum_ext. intros p Ip. unfold at_pub, tell_all. cbn. apply mem_In in Ip. rewrite Ip, app_length. cbn. lia. }
    destruct c; injection H as <-.
    + specialize (TA PAUSE). rewrite (sum_ext (at_task (tell_all cfg PAUSE _)) (at_task s)) by reflexivity. unfold at_server. cbn [s_lock s_calls tell_all set_calls set_inbox]. rewrite L. nia.
    + specialize (TA RESUME). rewrite (sum_ext (at_task (tell_all cfg RESUME _)) (at_task s)) by reflexivity. unfold at_server. cbn [s_lock s_calls tell_all set_calls set_inbox]. rewrite L. nia.
    + rewrite (sum_ext (at_task (set_lock _ _)) (at_task s)) by reflexivity. rewrite (sum_ext (at_pub (set_lock _ _)) (at_pub s)) by reflexivity. unfold at_server. cbn [s_lock s_calls set_lock set_calls set_inbox]. rewrite L. nia.
  - destruct (s_lock s) as [[[j [|q rest]] [c|]]|] eqn:L; try discriminate. injection H as <-.
    assert (Iq : In q (c_pubs cfg)) by (destruct (t_lock _ _ (g_proto _ _ G) _ _ _ L) as [fin F]; rewrite F; apply in_or_app; right; now left).
    eapply KP; [reflexivity|exact Iq|reflexivity|reflexivity|intros u N; unfold at_pub; cbn; now rewrite !upd_neq by exact N|].
    unfold at_pub, at_server. cbn [s_lock s_calls set_lock set_inbox s_inbox s_drain length]. rewrite L, upd_eq, app_length. cbn [length]. lia.
  - destruct (s_lock s) as [[[j [|q rest]] [c|]]|] eqn:L; try discriminate. injection H as <-.
    rewrite (sum_ext (at_task (answer _ _)) (at_task s)) by reflexivity. rewrite (sum_ext (at_pub (answer _ _)) (at_pub s)) by reflexivity. unfold at_server. cbn [s_lock s_calls answer set_lock length]. rewrite L. cbn [length]. lia.
  - destruct (in_dec Nat.eq_dec p (c_pubs cfg)) as [Ip|NI].
    2:{ destruct (g_home _ _ G p NI) as [X Y]. rewrite X, Y in H. discriminate. }
    destruct (s_drain s p) eqn:D; [|discriminate|discriminate]. destruct (s_inbox s p) as [|c r] eqn:In0; [discriminate|].
    destruct c; injection H as <-; (eapply KP; [reflexivity|exact Ip|reflexivity|reflexivity|intros u N; unfold at_pub; cbn; now rewrite ?upd_neq by exact N|]);
      unfold at_pub, at_server; cbn [s_lock s_calls set_run set_drain set_inbox s_inbox s_drain]; rewrite !upd_eq, ?D, In0; cbn [length]; [lia|lia|]. unfold wake_sync. destruct (any_held _ _); lia.
  - destruct (in_dec Nat.eq_dec p (c_pubs cfg)) as [Ip|NI].
    2:{ destruct (g_home _ _ G p NI) as [X Y]. rewrite Y in H. discriminate. }
    destruct (s_drain s p) eqn:D; [discriminate|discriminate|].
    destruct (s_lock s) as [[[j rest] [q|]]|] eqn:L; [destruct (q =? p)| |]; injection H as <-; (eapply KP; [reflexivity|exact Ip|reflexivity|reflexivity|intros u N; unfold at_pub; cbn; now rewrite ?upd_neq by exact N|]);
      unfold at_pub, at_server; cbn [s_lock s_calls set_lock set_drain set_inbox s_inbox s_drain]; rewrite !upd_eq, ?D, L; lia.
Qed.

Lemma bounded ls : forall s s', Good cfg s -> forallb by_itself ls = true -> steps cfg s ls = Some s' -> length ls <= cost s.
Proof.
  induction ls as [|l ls IH]; intros s s' G F H; cbn in *; [lia|]. apply andb_true_iff in F as [F1 F2]. destruct (step cfg s l) as [s1|] eqn:E; [|discriminate].
  pose proof (cost_step _ _ _ G F1 E). specialize (IH _ _ (Good_step cfg _ _ _ G E) F2 H). lia.
Qed.

(** The steps the pipeline could take by itself. *)
Definition candidates (s : state) : list label :=
  flat_map (fun t => [Take t; Publish t; Wake t; Done t]) (c_tasks cfg) ++ flat_map (fun p => [Hear p; Drained p]) (c_pubs cfg) ++ map Serve (keys (s_calls s)) ++ [Tell; Finish].

Lemma candidates_all s l : Good cfg s -> by_itself l = true -> step cfg s l <> None -> In l (candidates s).
Proof.
  intros G BI N. unfold candidates.
  assert (T : forall t, s_task s t <> Idle \/ s_queue s t <> [] -> In t (c_tasks cfg)).
  { intros t [X|X].
    - destruct (s_task s t) as [|m todo w] eqn:E; [congruence|]. exact (proj1 (b_task _ _ (g_base _ _ G) _ _ _ _ E)).
    - apply (b_mine _ _ (g_base _ _ G) t). unfold mine. destruct (s_queue s t); [congruence|]. destruct (busy_msg _); discriminate. }
  assert (T' : forall t l, (s_task s t <> Idle \/ s_queue s t <> []) -> In l [Take t; Publish t; Wake t; Done t] -> In l (flat_map (fun t => [Take t; Publish t; Wake t; Done t]) (c_tasks cfg))) by (intros t l' X I; apply in_flat_map; exists t; split; [exact (T t X)|exact I]).
  assert (P : forall p l, (s_inbox s p <> [] \/ s_drain s p <> NotSyncing) -> In l [Hear p; Drained p] -> In l (flat_map (fun p => [Hear p; Drained p]) (c_pubs cfg))).
  { intros p l' X I. apply in_flat_map. exists p. split; [|exact I]. destruct (in_dec Nat.eq_dec p (c_pubs cfg)) as [Y|Y]; [exact Y|]. destruct (g_home _ _ G p Y). destruct X; congruence. }
  destruct l; cbn in BI; try discriminate; cbn [step] in N.
  - apply in_or_app. left. apply (T' t); [|cbn; tauto]. right. intros E. rewrite E in N. destruct (s_task s t); congruence.
  - apply in_or_app. left. apply (T' t); [|cbn; tauto]. left. intros E. rewrite E in N. congruence.
  - apply in_or_app. left. apply (T' t); [|cbn; tauto]. left. intros E. rewrite E in N. congruence.
  - apply in_or_app. left. apply (T' t); [|cbn; tauto]. left. intros E. rewrite E in N. congruence.
  - apply in_or_app. right. apply in_or_app. right. apply in_or_app. left. apply in_map. destruct (s_lock s); [congruence|]. destruct (get i (s_calls s)) eqn:E; [|congruence]. exact (get_Some_key _ _ _ E).
  - apply in_or_app. right. apply in_or_app. right. apply in_or_app. right. cbn. tauto.
  - apply in_or_app. right. apply in_or_app. right. apply in_or_app. right. cbn. tauto.
  - apply in_or_app. right. apply in_or_app. left. apply (P p); [|cbn; tauto]. left. intros E. rewrite E in N. destruct (s_drain s p); congruence.
  - apply in_or_app. right. apply in_or_app. left. apply (P p); [|cbn; tauto]. right. intros E. rewrite E in N. congruence.
Qed.

Lemma candidates_own s l : In l (candidates s) -> by_itself l = true.
Proof.
  unfold candidates. rewrite !in_app_iff, !in_flat_map, in_map_iff. cbn.
  intros [(t & _ & I)|[(p & _ & I)|[(i & <- & _)|I]]]; repeat (destruct I as [<-|I]; [reflexivity|]); try contradiction; reflexivity.
Qed.

Lemma find_enabled s (ls : list label) : (exists l s', In l ls /\ step cfg s l = Some s') \/ (forall l, In l ls -> step cfg s l = None).
Proof.
  induction ls as [|l ls IH]; [right; intros l []|]. destruct (step cfg s l) as [s'|] eqn:E; [left; exists l, s'; split; [now left|exact E]|].
  destruct IH as [(l' & s' & I & E')|N]; [left; exists l', s'; split; [now right|exact E']|]. right. intros x [<-|I]; auto.
Qed.

Lemma comes_to_rest n : forall s, Good cfg s -> cost s <= n -> exists ls s', forallb by_itself ls = true /\ steps cfg s ls = Some s' /\ at_rest cfg s'.
Proof.
  induction n as [n IH] using lt_wf_ind. intros s G C. destruct (find_enabled s (candidates s)) as [(l & s1 & I & E)|N].
  - apply candidates_own in I. pose proof (cost_step _ _ _ G I E) as D. destruct (IH (cost s1) ltac:(lia) s1 (Good_step cfg _ _ _ G E) (le_n _)) as (ls & s' & F & H & R).
    exists (l :: ls), s'. cbn. rewrite I, E. auto.
  - exists [], s. split; [reflexivity|]. split; [reflexivity|]. intros l BI. destruct (step cfg s l) as [s'|] eqn:E; [|reflexivity].
    rewrite (N l) in E; [discriminate|]. apply (candidates_all s l G BI). congruence.
Qed.

(* ---- after resume() ---- *)

Definition Res (s : state) : Prop := s_lock s = None /\ forall p, In p (c_pubs cfg) -> (exists a, s_inbox s p = a ++ [RESUME]) \/ (s_inbox s p = [] /\ s_run s p = true).

Lemma Res_step s l s' : Good cfg s -> Res s -> ~ stops s l -> step cfg s l = Some s' -> Res s'.
Proof.
  intros G [L R] NS H. assert (K : s_lock s' = s_lock s -> s_run s' = s_run s -> s_inbox s' = s_inbox s -> Res s') by (unfold Res; intros -> -> ->; auto).
  destruct l; cbn in H, NS; try contradiction; try (injection H as <-; now apply K).
  - destruct (s_task s t); [|discriminate]. destruct (c_src cfg t); [discriminate|]. destruct (mem t (c_tasks cfg)); [|discriminate]. injection H as <-. now apply K.
  - injection H as <-. split; [exact L|]. intros q I. destruct (R q I) as [A|[A B]]; [now left|right; split; [exact A|]]. cbn. unfold upd. now destruct (q =? p).
  - destruct (s_task s t); [|discriminate]. destruct (s_queue s t); [discriminate|]. injection H as <-. now apply K.
  - destruct (s_task s t) as [|m [|q todo] [|]]; try discriminate. destruct (s_run s q); [|discriminate]. destruct (available cfg q s); injection H as <-; now apply K.
  - destruct (s_task s t) as [|m [|q todo] [|]]; try discriminate. destruct (available cfg q s); [|discriminate]. injection H as <-. now apply K.
  - destruct (s_task s t) as [|[m|] [|q todo] w]; try discriminate; [destruct (c_src cfg t) as [p0|]; [|discriminate]|]; injection H as <-; now apply K.
  - rewrite L in H. destruct (get i (s_calls s)) as [[]|]; [destruct NS; now left| |destruct NS; now right|discriminate]. injection H as <-. split; [exact L|]. intros p I. left. cbn. apply mem_In in I. rewrite I. eauto.
  - rewrite L in H. discriminate.
  - rewrite L in H. discriminate.
  - destruct (s_drain s p); [|discriminate|discriminate]. destruct (s_inbox s p) as [|c r] eqn:In0; [discriminate|].
    assert (X : In p (c_pubs cfg) -> (c = RESUME /\ r = []) \/ exists a, r = a ++ [RESUME]).
    { intros I. destruct (R p I) as [[a Ea]|[Ea _]]; [|congruence]. rewrite In0 in Ea. symmetry in Ea. apply last_split in Ea as [(_ & <- & ->)|[a' [_ ->]]]; [now left|right; eauto]. }
    destruct c; injection H as <-; (split; [exact L|]); intros q I; cbn; unfold upd; (destruct (Nat.eqb_spec q p) as [->|N]; [|exact (R q I)]); destruct (X I) as [[E ->]|Y]; try discriminate; auto.
  - destruct (s_drain s p); [discriminate|discriminate|]. rewrite L in H. injection H as <-. now apply K.
Qed.

Lemma Res_steps ls : forall s s', Good cfg s -> Res s -> throughout cfg (fun s l => ~ stops s l) s ls -> steps cfg s ls = Some s' -> Res s'.
Proof.
  induction ls as [|l ls IH]; intros s s' G S T H; cbn in H, T; [injection H as <-; exact S|]. destruct (step cfg s l) as [s1|] eqn:E; [|discriminate].
  destruct T as [NR T]. exact (IH s1 s' (Good_step cfg _ _ _ G E) (Res_step _ _ _ G S NR E) (T s1 eq_refl) H).
Qed.

Lemma Res_rest s : Good cfg s -> Res s -> at_rest cfg s -> forall p, In p (c_pubs cfg) -> s_run s p = true.
Proof.
  intros G [L R] AR p I. destruct (R p I) as [[a E]|[_ E]]; [|exact E]. exfalso.
  pose proof (t_pub _ _ (g_proto _ _ G) p) as Q. unfold proto in Q. rewrite L in Q. cbn in Q. destruct Q as [D _].
  pose proof (AR (Hear p) eq_refl) as A. cbn in A. rewrite D, E in A. destruct (a ++ [RESUME]) as [|c r] eqn:X; [destruct a; discriminate|]. destruct c; discriminate.
Qed.

End End_.

(* ---- nothing is lost ---- *)

Section Balance.
Context (cfg : config) (PL : pipeline cfg).

Definition todo_of (a : activity) : list nat := match a with Idle => [] | Busy _ todo _ => todo end.
Definition occ (q : nat) (l : list nat) : nat := count_occ Nat.eq_dec l q.
Definition owed (q : nat) (s : state) (t : nat) : nat := occ q (todo_of (s_task s t)) + occ q (c_outs cfg t) * length (s_queue s t).
Definition due (q : nat) (s : state) (b : nat -> nat) (t : nat) : nat := occ q (c_outs cfg t) * match c_src cfg t with Some p => s_sent s p | None => b t end.
Definition Balance (s : state) (b : nat -> nat) : Prop := forall q, s_sent s q + sum (owed q s) (c_tasks cfg) = sum (due q s b) (c_tasks cfg).

Lemma Balance_task s s' b t : Balance s b -> In t (c_tasks cfg) -> s_sent s' = s_sent s -> (forall u, u <> t -> s_task s' u = s_task s u /\ s_queue s' u = s_queue s u) -> (forall q, owed q s' t = owed q s t) -> Balance s' b.
Proof.
  intros B I S N O q. pose proof PL as (_ & NDt & _). unfold due. rewrite S. specialize (B q). unfold due in B. rewrite <- B. f_equal.
  pose proof (sum_at (owed q s) (owed q s') t (c_tasks cfg) NDt I) as X. rewrite (O q) in X. enough (Y : sum (owed q s') (c_tasks cfg) + owed q s t = sum (owed q s) (c_tasks cfg) + owed q s t) by lia.
  apply X. intros u Nu. destruct (N u Nu) as [E1 E2]. unfold owed. now rewrite E1, E2.
Qed.

Lemma Balance_same s s' b : Balance s b -> s_sent s' = s_sent s -> s_task s' = s_task s -> s_queue s' = s_queue s -> Balance s' b.
Proof. intros B S T Q q. unfold due. rewrite S. rewrite (sum_ext (owed q s') (owed q s)) by (intros t _; unfold owed; now rewrite T, Q). exact (B q). Qed.

Lemma Balance_send s b t m q0 todo w : Balance s b -> Base cfg s -> s_task s t = Busy m (q0 :: todo) w -> Balance (set_task (upd (s_task s) t (Busy m todo false)) (send cfg q0 s)) b.
Proof.
  intros B Ba E q. pose proof PL as (_ & NDt & _). destruct (b_task _ _ Ba _ _ _ _ E) as (It & _). specialize (B q). set (s1 := send cfg q0 s). set (s' := set_task _ s1).
  assert (M : forall u, In u (c_tasks cfg) -> mem u (subs cfg q0) = match c_src cfg u with Some p => p =? q0 | None => false end).
  { intros u Iu. destruct (mem u (subs cfg q0)) eqn:X.
    - apply mem_In, in_subs in X as [_ ->]. symmetry. apply Nat.eqb_refl.
    - apply mem_false in X. rewrite in_subs in X. destruct (c_src cfg u) as [p|]; [|reflexivity]. destruct (Nat.eqb_spec p q0) as [->|]; [|reflexivity]. destruct X. auto. }
  assert (R : sum (due q s' b) (c_tasks cfg) = sum (due q s b) (c_tasks cfg) + sum (fun u => if mem u (subs cfg q0) then occ q (c_outs cfg u) else 0) (c_tasks cfg)).
  { rewrite <- sum_plus. apply sum_ext. intros u Iu. rewrite (M u Iu). unfold due, s', s1. cbn. destruct (c_src cfg u) as [p|]; [|lia]. unfold upd. destruct (Nat.eqb_spec p q0) as [->|]; lia. }
  assert (Lq : sum (owed q s1) (c_tasks cfg) = sum (owed q s) (c_tasks cfg) + sum (fun u => if mem u (subs cfg q0) then occ q (c_outs cfg u) else 0) (c_tasks cfg)).
  { rewrite <- sum_plus. apply sum_ext. intros u Iu. unfold owed, s1. cbn. destruct (mem u (subs cfg q0)); [rewrite app_length; cbn; lia|lia]. }
  assert (T : sum (owed q s') (c_tasks cfg) + owed q s1 t = sum (owed q s1) (c_tasks cfg) + owed q s' t).
  { apply sum_at; [exact NDt|exact It|]. intros u N. unfold owed, s'. cbn [s_task set_task s_queue]. now rewrite upd_neq by exact N. }
  assert (O : s_sent s' q + owed q s' t = s_sent s q + owed q s1 t).
  { unfold s', s1, owed. cbn [s_task set_task s_queue send s_sent]. rewrite upd_eq, E. cbn [todo_of]. unfold occ at 1 3. cbn [count_occ]. unfold upd. destruct (Nat.eq_dec q0 q) as [->|N].
    - rewrite Nat.eqb_refl. lia.
    - destruct (Nat.eqb_spec q q0); [congruence|]. lia. }
  lia.
Qed.

Lemma Balance_step s b l s' : Balance s b -> Base cfg s -> step cfg s l = Some s' -> Balance s' (fun t => b t + match l with Begin u => if u =? t then 1 else 0 | _ => 0 end).
Proof.
  intros B Ba H. pose proof PL as (_ & NDt & _).
  assert (Z : (forall u, l <> Begin u) -> Balance s' b -> Balance s' (fun t => b t + match l with Begin u => if u =? t then 1 else 0 | _ => 0 end)).
  { intros N X q. rewrite (X q). apply sum_ext. intros t _. unfold due. destruct l; try (destruct (c_src cfg t); lia). destruct (N t0 eq_refl). }
  destruct l; cbn in H; try (apply Z; [discriminate|]); try (injection H as <-; now apply (Balance_same s)).
  - destruct (s_task s t) eqn:E; [|discriminate]. destruct (c_src cfg t) eqn:C; [discriminate|]. destruct (mem t (c_tasks cfg)) eqn:M; [|discriminate]. injection H as <-. apply mem_In in M.
    intros q. set (s' := set_task _ s). specialize (B q).
    assert (T : sum (owed q s') (c_tasks cfg) + owed q s t = sum (owed q s) (c_tasks cfg) + owed q s' t).
    { apply sum_at; [exact NDt|exact M|]. intros u N. unfold owed, s'. cbn [s_task set_task s_queue]. now rewrite upd_neq by exact N. }
    pose proof (sum_at (due q s b) (due q s' (fun t0 => b t0 + (if t =? t0 then 1 else 0))) t (c_tasks cfg) NDt M) as D.
    assert (D' : forall x, x <> t -> due q s' (fun t0 => b t0 + (if t =? t0 then 1 else 0)) x = due q s b x).
    { intros x N. unfold due, s'. cbn. destruct (c_src cfg x); [reflexivity|]. destruct (Nat.eqb_spec t x); [congruence|]. now rewrite Nat.add_0_r. }
    specialize (D D'). assert (O : owed q s' t = owed q s t + occ q (c_outs cfg t)).
    { unfold owed, s'. cbn [s_task set_task s_queue]. rewrite upd_eq, E. cbn [todo_of]. unfold occ at 3. cbn. lia. }
    assert (D2 : due q s' (fun t0 => b t0 + (if t =? t0 then 1 else 0)) t = due q s b t + occ q (c_outs cfg t)) by (unfold due; rewrite C, Nat.eqb_refl; lia).
    change (s_sent s' q) with (s_sent s q). lia.
  - destruct (s_task s t) eqn:E; [|discriminate]. destruct (s_queue s t) as [|m r] eqn:Q; [discriminate|]. injection H as <-.
    assert (NE : mine s t <> []) by (unfold mine; rewrite E, Q; discriminate). destruct (b_mine _ _ Ba t NE) as [It _].
    apply (Balance_task s _ b t B It); [reflexivity|intros u N; cbn; now rewrite !upd_neq by exact N|]. intros q. unfold owed. cbn [s_task s_queue set_task set_queue]. rewrite !upd_eq, E, Q. cbn [todo_of length]. unfold occ at 3. cbn [count_occ]. lia.
  - destruct (s_task s t) as [|m [|q todo] [|]] eqn:E; try discriminate. destruct (s_run s q); [|discriminate]. destruct (available cfg q s); injection H as <-; [exact (Balance_send s b t m q todo false B Ba E)|].
    destruct (b_task _ _ Ba _ _ _ _ E) as (It & _). apply (Balance_task s _ b t B It); [reflexivity|intros u N; cbn; now rewrite !upd_neq by exact N|]. intros x. unfold owed. cbn [s_task s_queue set_task]. now rewrite upd_eq, E.
  - destruct (s_task s t) as [|m [|q todo] [|]] eqn:E; try discriminate. destruct (available cfg q s); [|discriminate]. injection H as <-. exact (Balance_send s b t m q todo true B Ba E).
  - destruct (s_task s t) as [|[m|] [|q todo] w] eqn:E; try discriminate; destruct (b_task _ _ Ba _ _ _ _ E) as (It & _); [destruct (c_src cfg t) as [p0|]; [|discriminate]|]; injection H as <-;
      (apply (Balance_task s _ b t B It); [reflexivity|intros u N; cbn; now rewrite !upd_neq by exact N|]); intros x; unfold owed; cbn [s_task s_queue set_task set_drain set_held]; now rewrite upd_eq, E.
  - destruct (s_lock s); [discriminate|]. destruct (get i (s_calls s)) as [[]|]; [| | |discriminate]; injection H as <-; now apply (Balance_same s).
  - destruct (s_lock s) as [[[j [|q rest]] [c|]]|]; try discriminate. injection H as <-. now apply (Balance_same s).
  - destruct (s_lock s) as [[[j [|q rest]] [c|]]|]; try discriminate. injection H as <-. now apply (Balance_same s).
  - destruct (s_drain s p); [|discriminate|discriminate]. destruct (s_inbox s p) as [|[] r]; [discriminate| | |]; injection H as <-; now apply (Balance_same s).
  - destruct (s_drain s p); [discriminate|discriminate|]. destruct (s_lock s) as [[[j rest] [q|]]|]; [destruct (q =? p)| |]; injection H as <-; now apply (Balance_same s).
Qed.

Lemma Balance_ext s b b' : Balance s b -> (forall t, b t = b' t) -> Balance s b'.
Proof. intros B E q. rewrite (B q). apply sum_ext. intros t _. unfold due. now rewrite E. Qed.

Lemma Balance_steps ls : forall s b s', Balance s b -> Good cfg s -> steps cfg s ls = Some s' -> Balance s' (fun t => b t + begun ls t).
Proof.
  induction ls as [|l ls IH]; intros s b s' B G H; cbn in H.
  - injection H as <-. apply (Balance_ext s b _ B). intros t. cbn. lia.
  - destruct (step cfg s l) as [s1|] eqn:E; [|discriminate]. pose proof (IH s1 _ s' (Balance_step _ _ _ _ B (g_base _ _ G) E) (Good_step cfg _ _ _ G E) H) as X.
    apply (Balance_ext _ _ _ X). intros t. unfold begun. cbn [filter]. destruct l; try lia. destruct (Nat.eqb_spec t0 t); cbn [length]; lia.
Qed.

Lemma total_sum f l : total f l = sum f l.
Proof. induction l as [|x l IH]; [reflexivity|]. cbn [sum]. rewrite <- IH. reflexivity. Qed.

Lemma nothing_lost ls s : steps cfg init ls = Some s -> (forall t, s_queue s t = [] /\ s_task s t = Idle) ->
  forall q, s_sent s q = total (fun t => count_occ Nat.eq_dec (c_outs cfg t) q * given cfg s ls t) (c_tasks cfg).
Proof.
  intros H I q. rewrite total_sum. assert (B0 : Balance init (fun _ => 0)).
  { intros x. cbn [s_sent init]. rewrite (sum_ext (owed x init) (fun _ => 0)) by (intros t _; unfold owed; cbn; lia). rewrite (sum_ext (due x init (fun _ => 0)) (fun _ => 0)) by (intros t _; unfold due; destruct (c_src cfg t); cbn; lia). lia. }
  pose proof (Balance_steps ls init _ s B0 (Good_init cfg) H q) as B. rewrite (sum_ext (owed q s) (fun _ => 0)), sum_const in B by (intros t _; unfold owed; destruct (I t) as [-> ->]; cbn; lia).
  cbn [Nat.mul] in B. rewrite Nat.add_0_r in B. rewrite B. apply sum_ext. intros t _. unfold due, given, occ. destruct (c_src cfg t); reflexivity.
Qed.

(* ---- after pause() ---- *)

Definition Pau (p : nat) (s : state) : Prop := (exists a c, s_inbox s p = a ++ PAUSE :: c /\ ~ In RESUME c) \/ (s_run s p = false /\ ~ In RESUME (s_inbox s p)).

Lemma Pau_step p s l s' : Pau p s -> ~ resumes s l -> step cfg s l = Some s' -> Pau p s'.
Proof.
  intros R NS H. assert (K : s_run s' = s_run s -> s_inbox s' = s_inbox s -> Pau p s') by (unfold Pau; intros -> ->; auto).
  assert (App : forall c, c <> RESUME -> s_run s' p = s_run s p -> s_inbox s' p = s_inbox s p ++ [c] -> Pau p s').
  { intros c NC E1 E2. destruct R as [(a & x & E & N)|[E N]].
    - left. exists a, (x ++ [c]). rewrite E2, E, <- app_assoc. split; [reflexivity|]. intros I. apply in_app_or in I as [I|[I|[]]]; [exact (N I)|congruence].
    - right. rewrite E1, E2. split; [exact E|]. intros I. apply in_app_or in I as [I|[I|[]]]; [exact (N I)|congruence]. }
  destruct l; cbn in H, NS; try contradiction; try (injection H as <-; now apply K).
  - destruct (s_task s t); [|discriminate]. destruct (c_src cfg t); [discriminate|]. destruct (mem t (c_tasks cfg)); [|discriminate]. injection H as <-. now apply K.
  - injection H as <-. destruct R as [R|[R N]]; [left; exact R|right]. cbn. split; [|exact N]. unfold upd. now destruct (p =? p0).
  - destruct (s_task s t); [|discriminate]. destruct (s_queue s t); [discriminate|]. injection H as <-. now apply K.
  - destruct (s_task s t) as [|m [|q todo] [|]]; try discriminate. destruct (s_run s q); [|discriminate]. destruct (available cfg q s); injection H as <-; now apply K.
  - destruct (s_task s t) as [|m [|q todo] [|]]; try discriminate. destruct (available cfg q s); [|discriminate]. injection H as <-. now apply K.
  - destruct (s_task s t) as [|[m|] [|q todo] w]; try discriminate; [destruct (c_src cfg t) as [p0|]; [|discriminate]|]; injection H as <-; now apply K.
  - destruct (s_lock s); [discriminate|]. destruct (get i (s_calls s)) as [[]|]; [|congruence| |discriminate]; injection H as <-; [|now apply K].
    destruct (mem p (c_pubs cfg)) eqn:M; [apply (App PAUSE); [discriminate|reflexivity|cbn; now rewrite M]|]. unfold Pau in *. cbn. rewrite M. exact R.
  - destruct (s_lock s) as [[[j [|q rest]] [c|]]|]; try discriminate. injection H as <-. destruct (Nat.eq_dec p q) as [->|N]; [apply (App SYNC); [discriminate|reflexivity|cbn; now rewrite upd_eq]|].
    unfold Pau in *. cbn. rewrite upd_neq by exact N. exact R.
  - destruct (s_lock s) as [[[j [|q rest]] [c|]]|]; try discriminate. injection H as <-. now apply K.
  - destruct (s_drain s p0); [|discriminate|discriminate]. destruct (s_inbox s p0) as [|c r] eqn:In0; [discriminate|].
    destruct (Nat.eq_dec p p0) as [->|NE].
    + assert (X : (c = PAUSE /\ ~ In RESUME r) \/ (exists a x, r = a ++ PAUSE :: x /\ ~ In RESUME x) \/ (s_run s p0 = false /\ c <> RESUME /\ ~ In RESUME r)).
      { destruct R as [(a & x & E & N)|[E N]].
        - rewrite In0 in E. destruct a as [|y a]; cbn in E; injection E as -> ->; [left; auto|right; left; eauto].
        - rewrite In0 in N. right. right. split; [exact E|]. split; [intros ->; apply N; now left|intros I; apply N; now right]. }
      destruct c; injection H as <-; unfold Pau; cbn; rewrite ?upd_eq; destruct X as [[X1 X2]|[X|(X1 & X2 & X3)]]; try discriminate; try congruence; auto.
    + destruct c; injection H as <-; unfold Pau in *; cbn; rewrite ?upd_neq by exact NE; exact R.
  - destruct (s_drain s p0); [discriminate|discriminate|]. destruct (s_lock s) as [[[j rest] [q|]]|]; [destruct (q =? p0)| |]; injection H as <-; now apply K.
Qed.

Lemma Pau_steps p ls : forall s s', Pau p s -> throughout cfg (fun s l => ~ resumes s l) s ls -> steps cfg s ls = Some s' -> Pau p s'.
Proof.
  induction ls as [|l ls IH]; intros s s' S T H; cbn in H, T; [injection H as <-; exact S|]. destruct (step cfg s l) as [s1|] eqn:E; [|discriminate].
  destruct T as [NR T]. exact (IH s1 s' (Pau_step _ _ _ _ S NR E) (T s1 eq_refl) H).
Qed.

End Balance.

(* ---- stuck ---- *)

(** A sync() waits for [p]; task [t] has a message of [p] and waits for [q] to be resumed. *)
Definition stuck (i p m t q : nat) (s : state) : Prop :=
  (exists rest, s_lock s = Some (i, rest, Some p)) /\ s_drain s p = Waiting /\ In (p, m, t) (s_held s) /\ (exists todo, s_task s t = Busy (Some m) (q :: todo) false) /\
  s_run s q = false /\ ~ In RESUME (s_inbox s q).

Lemma stuck_step cfg i p m t q s l s' : stuck i p m t q s -> l <> LocalResume q -> step cfg s l = Some s' -> stuck i p m t q s' /\ (forall j, get j (s_calls s) <> None -> get j (s_calls s') = get j (s_calls s)) /\ s_synced s' = s_synced s.
Proof.
  intros ((rest & L) & D & I & (todo & T) & R & N) NL H.
  assert (K : s_lock s' = s_lock s -> s_drain s' p = s_drain s p -> In (p, m, t) (s_held s') -> s_task s' t = s_task s t -> s_run s' q = s_run s q -> ~ In RESUME (s_inbox s' q) -> stuck i p m t q s')
    by (intros K1 K2 K3 K4 K5 K6; split; [exists rest; congruence|]; split; [congruence|]; split; [exact K3|]; split; [exists todo; congruence|]; split; [congruence|exact K6]).
  destruct l; cbn in H; try (injection H as <-; split; [now apply K|split; [reflexivity|reflexivity]]).
  - destruct (s_task s t0) eqn:E; [|discriminate]. destruct (c_src cfg t0); [discriminate|]. destruct (mem t0 (c_tasks cfg)); [|discriminate]. injection H as <-. split; [|split; reflexivity].
    apply K; auto. cbn. rewrite upd_neq; [reflexivity|]. intros ->. congruence.
  - injection H as <-. split; [now apply K|]. split; [|reflexivity]. cbn. intros j G. destruct (get j (s_calls s)) eqn:E; [|congruence]. clear - E. induction (s_calls s) as [|[k v] r IH]; [discriminate|]. cbn in *. destruct (dec j k); auto.
  - injection H as <-. split; [|split; reflexivity]. apply K; auto. cbn. unfold upd. destruct (q =? p0); congruence.
  - injection H as <-. split; [|split; reflexivity]. apply K; auto. cbn. apply upd_neq. congruence.
  - destruct (s_task s t0) eqn:E; [|discriminate]. destruct (s_queue s t0); [discriminate|]. injection H as <-. split; [|split; reflexivity]. apply K; auto. cbn. rewrite upd_neq; [reflexivity|]. intros ->. congruence.
  - destruct (s_task s t0) as [|m0 [|q0 todo0] [|]] eqn:E; try discriminate. destruct (s_run s q0) eqn:R0; [|discriminate].
    assert (NE : t <> t0) by (intros ->; congruence).
    destruct (available cfg q0 s); injection H as <-; (split; [|split; reflexivity]); apply K; auto; cbn; try (rewrite upd_neq by exact NE; reflexivity). apply in_or_app. now left.
  - destruct (s_task s t0) as [|m0 [|q0 todo0] [|]] eqn:E; try discriminate. assert (NE : t <> t0) by (intros ->; congruence).
    destruct (available cfg q0 s); [|discriminate]. injection H as <-; (split; [|split; reflexivity]); apply K; auto; cbn; try (rewrite upd_neq by exact NE; reflexivity). apply in_or_app. now left.
  - destruct (s_task s t0) as [|[m0|] [|q0 todo0] w] eqn:E; try discriminate; assert (NE : t <> t0) by (intros ->; congruence).
    + destruct (c_src cfg t0) as [p0|]; [|discriminate]. injection H as <-. split; [|split; reflexivity].
      assert (I' : In (p, m, t) (filter (fun h => negb (same p0 m0 t0 h)) (s_held s))).
      { apply filter_In. split; [exact I|]. apply negb_true_iff. destruct (same p0 m0 t0 (p, m, t)) eqn:X; [|reflexivity]. apply same_spec in X. congruence. }
      apply K; auto; cbn; [|now rewrite upd_neq by exact NE]. unfold upd. destruct (Nat.eqb_spec p p0) as [->|]; [|reflexivity]. rewrite D. unfold wake_sync.
      replace (any_held p0 _) with true; [reflexivity|]. symmetry. apply any_held_In. eauto.
    + injection H as <-. split; [|split; reflexivity]. apply K; auto. cbn. now rewrite upd_neq by exact NE.
  - rewrite L in H. discriminate.
  - rewrite L in H. destruct rest; discriminate.
  - rewrite L in H. destruct rest; discriminate.
  - destruct (s_drain s p0) eqn:D0; [|discriminate|discriminate]. assert (NE : p <> p0) by (intros ->; congruence). destruct (s_inbox s p0) as [|c r] eqn:In0; [discriminate|].
    assert (N' : ~ In RESUME (upd (s_inbox s) p0 r q)) by (unfold upd; destruct (Nat.eqb_spec q p0) as [->|]; [|exact N]; intros X; apply N; rewrite In0; now right).
    destruct c; injection H as <-; (split; [|split; reflexivity]); apply K; auto; cbn; try (rewrite upd_neq by exact NE; reflexivity); unfold upd; destruct (Nat.eqb_spec q p0) as [->|]; auto.
    exfalso. apply N. rewrite In0. now left.
  - destruct (s_drain s p0) eqn:D0; [discriminate|discriminate|]. assert (NE : p <> p0) by (intros ->; congruence). rewrite L in H. destruct (Nat.eqb_spec p p0); [congruence|]. injection H as <-.
    split; [|split; reflexivity]. apply K; auto; cbn; now rewrite upd_neq by exact NE.
Qed.

Lemma stuck_steps cfg i p m t q ls : forall s s', stuck i p m t q s -> ~ In (LocalResume q) ls -> steps cfg s ls = Some s' ->
  stuck i p m t q s' /\ (forall j, get j (s_calls s) <> None -> get j (s_calls s') = get j (s_calls s)) /\ s_synced s' = s_synced s.
Proof.
  induction ls as [|l ls IH]; intros s s' S N H; cbn in H; [injection H as <-; auto|]. destruct (step cfg s l) as [s1|] eqn:E; [|discriminate].
  destruct (stuck_step cfg i p m t q s l s1 S) as (S1 & C1 & Y1); [intros ->; apply N; now left|exact E|].
  destruct (IH s1 s' S1) as (S2 & C2 & Y2); [intros I; apply N; now right|exact H|]. split; [exact S2|]. split; [|congruence].
  intros j G. rewrite C2; [now apply C1|]. rewrite C1; assumption.
Qed.
