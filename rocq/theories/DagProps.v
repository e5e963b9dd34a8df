(* C24-C28: the topic graph stays a DAG, edges live exactly as long as an
   owner holds them, and reachability queries are exact.  Every theorem ranges
   over every finite history [ops] of connects, disconnects and owner removals,
   accepted or refused, by any owners on any topics. *)

From Coq Require Import String List Relations.
From Verif Require Import Dict DagModel DagSpec DagProofs.
Import ListNotations.
Local Open Scope string_scope.

(** A history with two sessions, the persistent owner, a shared edge, a refused
    connect and a session that goes away. *)
Definition demo : list dag_op :=
  [ OConnect "A" "B" (Some 1); OConnect "B" "C" None; OConnect "A" "B" (Some 2);
    OConnect "C" "A" (Some 2); OConnect "C" "D" (Some 1); ODisconnect "B" "C" (Some 1);
    ODropOwner (Some 1); OConnect "X" "C" (Some 2); ODisconnect "X" "C" (Some 2) ].

(* ---- C24 ---- *)

(** C24: after any history the topic graph has no directed cycle. *)
Theorem C24_always_acyclic : forall ops : list dag_op, acyclic (state_after ops).
Proof. intros ops; exact (i_acyclic _ (DInv_after ops)). Qed.

(** C24: a connect is refused exactly when the edge would close a cycle. *)
Theorem C24_refused_iff_it_would_make_a_cycle :
  forall (ops : list dag_op) (f t : topic) (o : owner),
    snd (dag_step (state_after ops) (OConnect f t o)) = AConnect Cyclic <->
    exists x, path_with (state_after ops) f t x x.
Proof.
  intros ops f t o; cbn.
  destruct (add_edge f t o (state_after ops)) as [d' r] eqn:E; cbn.
  rewrite <- (rejected_iff _ f t o d' r (DInv_after ops) E).
  split; [now intros [=]|now intros ->].
Qed.

Example C24_case :
  history demo =
    [ (OConnect "A" "B" (Some 1), AConnect Appeared);
      (OConnect "B" "C" None, AConnect Appeared);
      (OConnect "A" "B" (Some 2), AConnect Unchanged);
      (OConnect "C" "A" (Some 2), AConnect Cyclic);
      (OConnect "C" "D" (Some 1), AConnect Appeared);
      (ODisconnect "B" "C" (Some 1), ADisconnect false);
      (ODropOwner (Some 1), ADropOwner [("C", "D")]);
      (OConnect "X" "C" (Some 2), AConnect Appeared);
      (ODisconnect "X" "C" (Some 2), ADisconnect true) ] /\
  path (state_after demo) "A" "C".
Proof.
  split; [vm_compute; reflexivity|].
  apply t_trans with (y := "B"); apply t_step.
  - exists ["B"]; vm_compute; auto.
  - exists ["C"]; vm_compute; auto.
Qed.

(* ---- C25 ---- *)

(** C25: an edge is present exactly while some owner has connected it (without
    being refused) and has not given it up since. *)
Theorem C25_edge_iff_owned :
  forall (ops : list dag_op) (f t : topic),
    has_edge (state_after ops) f t <-> exists o, owns (history ops) f t o.
Proof.
  intros ops f t. rewrite (has_edge_owner _ f t (DInv_after ops)).
  split; intros [o H]; exists o; now apply owns_owner.
Qed.

(** C25: the owners reported for an edge are exactly those. *)
Theorem C25_reported_owners :
  forall (ops : list dag_op) (f t : topic) (o : owner),
    (exists os, In ((f, t), os) (d_owners (state_after ops)) /\ In o os) <->
    owns (history ops) f t o.
Proof.
  intros ops f t o. rewrite owns_owner. unfold owner_of, getd.
  pose proof (i_onodup _ (DInv_after ops)) as ND. split.
  - intros [os [I J]]. now rewrite (In_get _ _ _ ND I).
  - destruct (get (f, t) (d_owners (state_after ops))) as [os|] eqn:G; [|intros []].
    intros J. exists os; split; [now apply get_In|assumption].
Qed.

(** C25: a connect reports a topology change exactly when the edge appears, and
    touches no other edge. *)
Theorem C25_connect_reports_the_change :
  forall (ops : list dag_op) (f t : topic) (o : owner) (d' : dag) (r : add_result),
    dag_step (state_after ops) (OConnect f t o) = (d', AConnect r) ->
    (r = Appeared <-> ~ has_edge (state_after ops) f t /\ has_edge d' f t) /\
    (r <> Cyclic -> has_edge d' f t) /\
    (forall a b, (a, b) <> (f, t) -> (has_edge d' a b <-> has_edge (state_after ops) a b)).
Proof.
  intros ops f t o d' r E. cbn in E.
  destruct (add_edge f t o (state_after ops)) as [d1 r1] eqn:A. injection E as -> ->.
  destruct (add_edge_changed _ f t o d' r (DInv_after ops) A) as [H1 H2].
  split; [exact H1|split; [|exact H2]]. intros N.
  pose proof (DInv_add _ f t o (DInv_after ops)) as I'.
  pose proof (add_edge_owner _ f t o (f, t) o (DInv_after ops)) as O.
  rewrite A in I', O; cbn in I', O.
  apply (has_edge_owner _ _ _ I'). exists o. apply O. auto.
Qed.

(** C25: a disconnect reports a topology change exactly when the edge disappears,
    and touches no other edge. *)
Theorem C25_disconnect_reports_the_change :
  forall (ops : list dag_op) (f t : topic) (o : owner) (d' : dag) (r : bool),
    dag_step (state_after ops) (ODisconnect f t o) = (d', ADisconnect r) ->
    (r = true <-> has_edge (state_after ops) f t /\ ~ has_edge d' f t) /\
    (forall a b, (a, b) <> (f, t) -> (has_edge d' a b <-> has_edge (state_after ops) a b)).
Proof.
  intros ops f t o d' r E. cbn in E.
  destruct (remove_edge f t o (state_after ops)) as [d1 r1] eqn:A. injection E as -> ->.
  pose proof (DInv_after ops) as I.
  split; [exact (remove_edge_changed _ f t o d' r I A)|].
  intros a b N. pose proof (DInv_remove _ f t o I) as I'.
  pose proof (fun o' => remove_edge_owner _ f t o (a, b) o' I) as O.
  rewrite A in I', O; cbn in I', O.
  rewrite (has_edge_owner _ a b I'), (has_edge_owner _ a b I).
  split; intros [o' J]; exists o'; apply O in J || apply O; tauto.
Qed.

(** C25: removing an owner reports exactly the edges that disappear, each once,
    and keeps every edge that someone else owns. *)
Theorem C25_drop_owner_reports_the_change :
  forall (ops : list dag_op) (o : owner) (d' : dag) (removed : list edge),
    dag_step (state_after ops) (ODropOwner o) = (d', ADropOwner removed) ->
    NoDup removed /\
    (forall a b, In (a, b) removed <-> has_edge (state_after ops) a b /\ ~ has_edge d' a b) /\
    (forall a b, has_edge d' a b <->
                 exists o', o' <> o /\ owns (history ops) a b o').
Proof.
  intros ops o d' removed E. cbn in E.
  destruct (remove_owner o (state_after ops)) as [d1 r1] eqn:A. injection E as -> ->.
  pose proof (remove_owner_ok _ o (DInv_after ops)) as R. rewrite A in R; cbn in R.
  destruct R as [I' [B [C N]]].
  split; [exact N|split].
  - intros a b. exact (C (a, b)).
  - intros a b. rewrite (has_edge_owner _ a b I').
    split; intros [o' J]; exists o'.
    + apply B in J as [J K]. split; [assumption|now apply owns_owner].
    + apply B. destruct J as [K J]. apply owns_owner in J. auto.
Qed.

Example C25_case :
  (exists o, owns (history demo) "A" "B" o) /\ ~ has_edge (state_after demo) "C" "D" /\
  has_edge (state_after demo) "B" "C".
Proof.
  split; [|split].
  - apply C25_edge_iff_owned. exists ["B"]; vm_compute; auto.
  - intros [s [I J]]. vm_compute in I. destruct I as [E|[E|[E|[]]]];
      inversion E; subst s; destruct J.
  - exists ["C"]; vm_compute; auto.
Qed.

(* ---- C26 ---- *)

(** C26: a refused connect leaves the whole graph object as it was, so every
    later answer is the same as if the request had never been made. *)
Theorem C26_refused_connect_changes_nothing :
  forall (ops : list dag_op) (f t : topic) (o : owner),
    snd (dag_step (state_after ops) (OConnect f t o)) = AConnect Cyclic ->
    fst (dag_step (state_after ops) (OConnect f t o)) = state_after ops /\
    forall later, state_after (ops ++ OConnect f t o :: later) = state_after (ops ++ later).
Proof.
  intros ops f t o; cbn.
  destruct (add_edge f t o (state_after ops)) as [d' r] eqn:E; cbn. intros [= ->].
  pose proof (rejected_same _ f t o d' (DInv_after ops) E) as S. split; [exact S|].
  intros later. subst d'. unfold state_after in *. rewrite !dag_run_app.
  destruct (dag_run empty_dag ops) as [d h]; cbn [fst] in *. cbn. rewrite E.
  destruct (dag_run d later); reflexivity.
Qed.

Example C26_case :
  snd (dag_step (state_after (firstn 3 demo)) (OConnect "C" "A" (Some 2))) = AConnect Cyclic /\
  d_graph (state_after (firstn 3 demo)) = [("A", ["B"]); ("B", ["C"]); ("C", [])].
Proof. vm_compute; auto. Qed.

(* ---- C27 ---- *)

(** C27: downstream(t) is t and the topics a directed path leads to from t, each once. *)
Theorem C27_downstream_is_reachability :
  forall (ops : list dag_op) (n : topic),
    NoDup (downstream n (state_after ops)) /\
    forall x, In x (downstream n (state_after ops)) <-> x = n \/ path (state_after ops) n x.
Proof. intros ops n; exact (downstream_spec _ n (DInv_after ops)). Qed.

(** C27: upstream(t) is t and the topics with a directed path to t, each once. *)
Theorem C27_upstream_is_reachability :
  forall (ops : list dag_op) (n : topic),
    NoDup (upstream n (state_after ops)) /\
    forall x, In x (upstream n (state_after ops)) <-> x = n \/ path (state_after ops) x n.
Proof. intros ops n; exact (upstream_spec _ n (DInv_after ops)). Qed.

(** C27: the search loop ends: with any larger allowance of iterations it gives
    the same answer, in the graph, in the inverted graph, and in the trial graph
    of a connect (which may have a cycle). *)
Theorem C27_search_always_ends :
  forall (ops : list dag_op) (n f t : topic) (fuel : nat) (g : graph),
    g = d_graph (state_after ops) \/ g = invgraph (d_graph (state_after ops)) \/
    g = touch t (add_arc f t (d_graph (state_after ops))) ->
    bfs_fuel g <= fuel ->
    bfs_loop fuel g [n] [] = Some (bfs g n).
Proof.
  intros ops n f t fuel g H L. apply bfs_total; [|exact L].
  pose proof (i_wf _ (DInv_after ops)) as W.
  destruct H as [->|[->| ->]]; [assumption|apply invgraph_wf|now apply with_arc_wf].
Qed.

Example C27_case :
  downstream "A" (state_after demo) = ["B"; "C"; "A"] /\
  upstream "C" (state_after demo) = ["B"; "A"; "C"] /\
  upstream "nowhere" (state_after demo) = ["nowhere"].
Proof. vm_compute; auto. Qed.

(* ---- C28 ---- *)

(** C28: the graph lists exactly the topics that touch an edge, each once. *)
Theorem C28_no_stale_topics :
  forall ops : list dag_op,
    NoDup (nodes (state_after ops)) /\
    forall n, In n (nodes (state_after ops)) <-> touches_edge (state_after ops) n.
Proof.
  intros ops. split; [exact (proj1 (i_wf _ (DInv_after ops)))|exact (i_nodes _ (DInv_after ops))].
Qed.

Example C28_case :
  nodes (state_after demo) = ["A"; "B"; "C"] /\
  nodes (state_after (demo ++ [ODropOwner (Some 2); ODropOwner None])) = [].
Proof. vm_compute; auto. Qed.

Print Assumptions C24_always_acyclic.
Print Assumptions C24_refused_iff_it_would_make_a_cycle.
Print Assumptions C25_edge_iff_owned.
Print Assumptions C25_reported_owners.
Print Assumptions C25_connect_reports_the_change.
Print Assumptions C25_disconnect_reports_the_change.
Print Assumptions C25_drop_owner_reports_the_change.
Print Assumptions C26_refused_connect_changes_nothing.
Print Assumptions C27_downstream_is_reachability.
Print Assumptions C27_upstream_is_reachability.
Print Assumptions C27_search_always_ends.
Print Assumptions C28_no_stale_topics.
