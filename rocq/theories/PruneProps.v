(* C46: pruning proxy topics keeps the connectivity of the others. *)

From Coq Require Import List Arith Bool Lia Relations.
From Verif Require Import Dict PruneModel.
Import ListNotations.

Section Spec.
Context {K : Type} `{Dec K}.
Notation graph := (list (K * list K)).

(** [u] is connected to [v]. *)
Definition edge (g : graph) (u v : K) : Prop := exists vs, In (u, vs) g /\ In v vs.

(** There is a path, of at least one connection. *)
Definition path (g : graph) : K -> K -> Prop := clos_trans K (edge g).

Definition acyclic (g : graph) : Prop := forall u, ~ path g u u.

(** A proxy topic has connections into it and out of it. *)
Definition proxy (g : graph) (p : K) : Prop := (exists u, edge g u p) /\ (exists v, edge g p v).

(** Every topic mentioned is a key (as in the graph the server keeps). *)
Definition closed (g : graph) : Prop := forall u v, edge g u v -> In v (keys g).

End Spec.

Section Proofs.
Context {K : Type} `{Dec K}.
Notation graph := (list (K * list K)).

Lemma In_union (a b : list K) x : In x (union a b) <-> In x a \/ In x b.
Proof.
  unfold union. revert a; induction b as [|y b IH]; intros a; cbn; [tauto|].
  rewrite IH, In_sadd. intuition congruence.
Qed.

Lemma edge_get (g : graph) u v : NoDup (keys g) -> (edge g u v <-> exists vs, get u g = Some vs /\ In v vs).
Proof.
  intros N. split; intros (vs & I & J); exists vs; split; auto; [apply In_get|apply get_In]; auto.
Qed.

Lemma In_sources (g : graph) u : In u (source_nodes g) <-> exists v, edge g u v.
Proof.
  unfold source_nodes. rewrite in_flat_map. split.
  - intros ([k vs] & I & J). cbn in J. destruct vs as [|v vs]; [destruct J|]. destruct J as [<-|[]].
    exists v, (v :: vs). split; [exact I|left; reflexivity].
  - intros (v & vs & I & J). exists (u, vs). split; [exact I|]. cbn. destruct vs; [destruct J|left; reflexivity].
Qed.

Lemma proxies_fold (g : graph) l acc p :
  In p (fold_left (fun acc c => if mem c (source_nodes g) then sadd c acc else acc) l acc) <->
  In p acc \/ (In p l /\ In p (source_nodes g)).
Proof.
  revert acc; induction l as [|c l IH]; intros acc; cbn; [tauto|]. rewrite IH.
  destruct (mem c (source_nodes g)) eqn:E.
  - apply mem_In in E. rewrite In_sadd. intuition (subst; auto).
  - apply mem_false in E. intuition (subst; auto). contradiction.
Qed.

Lemma In_proxies (g : graph) p : In p (proxy_topics g) <-> proxy g p.
Proof.
  unfold proxy_topics, proxy. rewrite proxies_fold, In_sources. rewrite in_flat_map. split.
  - intros [[]|[([u vs] & I & J) S]]. split; [exists u, vs; auto|exact S].
  - intros [(u & vs & I & J) S]. right. split; [exists (u, vs); auto|exact S].
Qed.

Lemma proxies_NoDup (g : graph) : NoDup (proxy_topics g).
Proof.
  unfold proxy_topics. generalize (flat_map snd g). intros l.
  assert (N : NoDup (@nil K)) by constructor. revert N. generalize (@nil K).
  induction l as [|c l IH]; intros acc N; cbn; [exact N|]. apply IH. destruct (mem c _); [apply NoDup_sadd; exact N|exact N].
Qed.

Lemma keys_remove_proxy (g : graph) p : keys (remove_proxy g p) = keys (del p g).
Proof. unfold remove_proxy, keys. rewrite map_map. reflexivity. Qed.

Lemma In_del (g : graph) p u vs : In (u, vs) (del p g) <-> u <> p /\ In (u, vs) g.
Proof.
  unfold del. rewrite filter_In. cbn. rewrite negb_true_iff. rewrite eqd_false. intuition congruence.
Qed.

Lemma edge_remove (g : graph) p u v :
  NoDup (keys g) -> ~ edge g p p ->
  (edge (remove_proxy g p) u v <->
   u <> p /\ v <> p /\ (edge g u v \/ (edge g u p /\ edge g p v))).
Proof.
  intros N NS. unfold remove_proxy. set (D := getd p [] g).
  assert (HD : forall x, In x D <-> edge g p x).
  { intros x. rewrite edge_get by exact N. unfold D, getd. destruct (get p g) as [vs|].
    - split; [intros I; exists vs; auto|intros (vs' & E & I); injection E as <-; exact I].
    - split; [intros []|intros (vs' & E & I); discriminate]. }
  split.
  - intros (vs & I & J). apply in_map_iff in I. destruct I as ([k ws] & E & I). cbn [fst snd] in E. injection E as <- <-.
    apply In_del in I. destruct I as [Nk I]. split; [exact Nk|].
    destruct (mem p ws) eqn:M.
    + apply mem_In in M. apply In_union in J. destruct J as [J|J].
      * apply In_sdel in J. destruct J as [J1 J2]. split; [congruence|]. left. exists ws. auto.
      * apply HD in J. split; [intros ->; contradiction|]. right. split; [exists ws; auto|exact J].
    + apply mem_false in M. split; [intros ->; contradiction|]. left. exists ws. auto.
  - intros (Nu & Nv & [(ws & I & J)|[(ws & I & J) Ep]]).
    + exists (if mem p ws then union (sdel p ws) D else ws). split.
      * apply in_map_iff. exists (u, ws). split; [reflexivity|]. apply In_del. auto.
      * destruct (mem p ws); [|exact J]. apply In_union. left. apply In_sdel. split; [congruence|exact J].
    + exists (union (sdel p ws) D). split.
      * apply in_map_iff. exists (u, ws). cbn [fst snd]. rewrite (proj2 (mem_In p ws) J). split; [reflexivity|]. apply In_del. auto.
      * apply In_union. right. apply HD. exact Ep.
Qed.

Lemma path_remove_sound (g : graph) p u v :
  NoDup (keys g) -> ~ edge g p p -> path (remove_proxy g p) u v -> path g u v /\ u <> p /\ v <> p.
Proof.
  intros N NS P. induction P as [u v E|u w v P1 [IH1 [A1 A2]] P2 [IH2 [B1 B2]]].
  - apply edge_remove in E; auto. destruct E as (Nu & Nv & [E|[E1 E2]]); (split; [|auto]).
    + apply t_step. exact E.
    + apply t_trans with p; apply t_step; auto.
  - split; [|auto]. apply t_trans with w; auto.
Qed.

Lemma path_remove_complete (g : graph) p u v :
  NoDup (keys g) -> ~ edge g p p -> path g u v -> u <> p -> v <> p -> path (remove_proxy g p) u v.
Proof.
  intros N NS P. apply clos_trans_t1n in P.
  assert (C : v <> p -> (u <> p -> path (remove_proxy g p) u v) /\
                        (u = p -> forall w, w <> p -> edge g w p -> path (remove_proxy g p) w v)).
  { induction P as [u v E|u x v E P IH]; intros Nv.
    - split.
      + intros Nu. apply t_step. apply edge_remove; auto.
      + intros -> w Nw Ew. apply t_step. apply edge_remove; auto.
    - destruct (IH Nv) as [IH1 IH2]. split.
      + intros Nu. destruct (dec x p) as [->|Nx].
        * apply IH2; auto.
        * apply t_trans with x; [|exact (IH1 Nx)]. apply t_step. apply edge_remove; auto.
      + intros -> w Nw Ew. destruct (dec x p) as [->|Nx]; [contradiction|].
        apply t_trans with x; [|exact (IH1 Nx)]. apply t_step. apply edge_remove; auto. }
  intros Nu Nv. exact (proj1 (C Nv) Nu).
Qed.

Lemma prune_fold ps : forall g : graph,
  NoDup (keys g) -> acyclic g ->
  let g' := fold_left remove_proxy ps g in
  NoDup (keys g') /\ acyclic g' /\
  (forall u v, path g' u v -> path g u v /\ ~ In u ps /\ ~ In v ps) /\
  (forall u v, path g u v -> ~ In u ps -> ~ In v ps -> path g' u v) /\
  (forall u, In u (keys g') <-> In u (keys g) /\ ~ In u ps).
Proof.
  induction ps as [|p ps IH]; intros g N A; cbn [fold_left].
  - split; [exact N|]. split; [exact A|]. cbn. split; [auto|]. split; [auto|]. intros; tauto.
  - assert (NS : ~ edge g p p) by (intros E; apply (A p); apply t_step; exact E).
    assert (N1 : NoDup (keys (remove_proxy g p))) by (rewrite keys_remove_proxy; apply NoDup_keys_del; exact N).
    assert (A1 : acyclic (remove_proxy g p)).
    { intros u P. apply path_remove_sound in P; auto. apply (A u). apply P. }
    destruct (IH _ N1 A1) as (I1 & I2 & I3 & I4 & I5). split; [exact I1|]. split; [exact I2|]. split; [|split].
    + intros u v P. destruct (I3 _ _ P) as (P' & Nu & Nv). apply path_remove_sound in P'; auto.
      destruct P' as (P' & Mu & Mv). split; [exact P'|]. cbn. split; intros [E|I]; auto.
    + intros u v P Nu Nv. cbn in Nu, Nv. apply I4; [|tauto|tauto]. apply path_remove_complete; auto.
    + intros u. rewrite I5, keys_remove_proxy, keys_del. cbn. intuition congruence.
Qed.

Lemma path_first (g : graph) u v : path g u v -> exists w, edge g u w.
Proof. intros P. apply clos_trans_t1n in P. destruct P as [v E|x v E _]; eauto. Qed.

Lemma path_last (g : graph) u v : path g u v -> exists w, edge g w v.
Proof. intros P. apply clos_trans_tn1 in P. destruct P as [v E|x v E _]; eauto. Qed.

End Proofs.

(** C46.  The topics taken out are the proxy topics, those with connections both in and out;
    the others stay, and two of them are connected in the pruned graph exactly if there is
    a path from one to the other in the original. *)
Theorem C46_pruning_keeps_connectivity :
  forall (K : Type) (D : Dec K) (g : list (K * list K)) g' proxies,
    NoDup (keys g) -> acyclic g ->
    prune_graph_connections g = (g', proxies) ->
    (forall p, In p proxies <-> proxy g p) /\
    (forall u, In u (keys g') <-> In u (keys g) /\ ~ proxy g u) /\
    (forall u v, edge g' u v <-> path g u v /\ ~ proxy g u /\ ~ proxy g v).
Proof.
  intros K D g g' proxies N A E. unfold prune_graph_connections in E. injection E as <- <-.
  destruct (prune_fold (proxy_topics g) g N A) as (_ & _ & I3 & I4 & I5).
  split; [apply In_proxies|]. split.
  - intros u. rewrite I5, In_proxies. tauto.
  - intros u v. split.
    + intros E. destruct (I3 u v) as (P & Nu & Nv); [apply t_step; exact E|].
      rewrite In_proxies in Nu, Nv. auto.
    + intros (P & Nu & Nv). rewrite <- In_proxies in Nu, Nv.
      pose proof (I4 _ _ P Nu Nv) as P'. apply clos_trans_t1n in P'.
      destruct P' as [v E|x v E P']; [exact E|exfalso].
      apply clos_t1n_trans in P'.
      destruct (I3 u x) as (P1 & _ & Nx); [apply t_step; exact E|].
      destruct (I3 x v P') as (P2 & _ & _). apply Nx. apply In_proxies.
      split; [eapply path_last; exact P1|eapply path_first; exact P2].
Qed.
Print Assumptions C46_pruning_keeps_connectivity.

(** C46.  The pruned graph mentions no topic that is not one of its keys, if the
    original did not (so every connection can be drawn). *)
Theorem C46_pruned_graph_is_closed :
  forall (K : Type) (D : Dec K) (g : list (K * list K)) g' proxies,
    NoDup (keys g) -> acyclic g -> closed g ->
    prune_graph_connections g = (g', proxies) -> closed g'.
Proof.
  intros K D g g' proxies N A C E u v Ev.
  destruct (C46_pruning_keeps_connectivity K D g g' proxies N A E) as (_ & Hk & He).
  apply He in Ev. destruct Ev as (P & _ & Nv). apply Hk. split; [|exact Nv].
  apply path_last in P. destruct P as [w Ew]. exact (C w v Ew).
Qed.
Print Assumptions C46_pruned_graph_is_closed.

(** 1 -> 2 -> 3 -> 5, 4 -> 3, 3 -> 6. *)
Definition sample_graph : list (nat * list nat) := [(1, [2]); (2, [3]); (3, [5; 6]); (4, [3]); (5, []); (6, [])].

Lemma edge_lt_acyclic (g : list (nat * list nat)) (f : nat -> nat) : (forall u v, edge g u v -> f u < f v) -> acyclic g.
Proof.
  intros H u P.
  assert (L : forall a b, path g a b -> f a < f b) by (intros a b Q; induction Q; [auto|lia]).
  specialize (L _ _ P). lia.
Qed.

Example C46_case :
  NoDup (keys sample_graph) /\ acyclic sample_graph /\ closed sample_graph /\
  prune_graph_connections sample_graph = ([(1, [5; 6]); (4, [5; 6]); (5, []); (6, [])], [2; 3]).
Proof.
  split; [repeat constructor; cbn; intuition discriminate|]. split; [|split; [|reflexivity]].
  - apply (edge_lt_acyclic _ (fun n => if n =? 4 then 0 else n)). intros u v (vs & I & J).
    repeat (destruct I as [I|I]; [injection I as <- <-; repeat (destruct J as [<-|J]; [cbn; lia|]); destruct J|]). destruct I.
  - intros u v (vs & I & J).
    repeat (destruct I as [I|I]; [injection I as <- <-; repeat (destruct J as [<-|J]; [cbn; tauto|]); destruct J|]). destruct I.
Qed.

(** Acyclicity (C24) is needed: on a cycle a topic that was taken out is still mentioned. *)
Theorem C46_cyclic_graph_refuted :
  exists (g : list (nat * list nat)) g' proxies,
    NoDup (keys g) /\ closed g /\ prune_graph_connections g = (g', proxies) /\
    exists u v, edge g' u v /\ In v proxies.
Proof.
  exists [(0, [1]); (1, [2]); (2, [1; 3]); (3, [])], [(0, [3; 2]); (3, [])], [1; 2].
  split; [repeat constructor; cbn; intuition discriminate|]. split; [|split; [reflexivity|]].
  - intros u v (vs & I & J).
    repeat (destruct I as [I|I]; [injection I as <- <-; repeat (destruct J as [<-|J]; [cbn; tauto|]); destruct J|]). destruct I.
  - exists 0, 2. split; [exists [3; 2]|]; cbn; auto.
Qed.
Print Assumptions C46_cyclic_graph_refuted.
