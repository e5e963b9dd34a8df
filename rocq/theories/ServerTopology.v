(* What each command of the graph server does to the topology log, and which
   notifications it asks for. *)

From Coq Require Import String List Arith Bool Lia.
From Verif Require Import Dict DagModel DagSpec DagProofs EventLogModel ServerModel ServerSpec ServerFrames
  ServerProofs.
Import ListNotations.

Lemma drop_edges_nodup sid es : forall s ts, NoDup ts ->
  NoDup (snd (fold_left (fun acc e =>
    let '(s', ts) := acc in
    let '(s'', ch) := disconnect_owner (fst e) (snd e) (Some sid) s' in
    (s'', if ch : bool then sadd (snd e) ts else ts)) es (s, ts))).
Proof.
  induction es as [|e es IH]; intros s ts N; cbn [fold_left]; [exact N|].
  destruct (disconnect_owner (fst e) (snd e) (Some sid) s) as [s1 ch]. apply IH.
  destruct ch; [now apply NoDup_sadd|assumption].
Qed.

Definition graph_events (ts : list topic) (src : option nat) : list tev :=
  match ts with [] => [] | _ => [mkTev GRAPH_CHANGED ts src None] end.

Notation appends new L := (fold_left (fun L' e => append e L') new L).

Lemma graph_changed_tlog ts src s :
  s_tlog (graph_changed_event ts src s) = appends (graph_events ts src) (s_tlog s) /\
  s_dag (graph_changed_event ts src s) = s_dag s.
Proof. destruct ts; split; reflexivity. Qed.

Lemma tlog_remove_session sid s : s_tlog (remove_settings_for_session sid s) = s_tlog s.
Proof. destruct (remove_settings_for_session_eq sid s) as [x [E _]]. now rewrite E. Qed.

Lemma tlog_set_metadata sid md s : s_tlog (set_metadata sid md s) = s_tlog s.
Proof. unfold set_metadata. destruct (session_info sid s) as [[]|]; reflexivity. Qed.

Lemma clear_tlog sid s es md ts : CInv s -> session_info sid s = Some (es, md) ->
  snd (clear_session sid s) = ts ->
  NoDup ts /\ s_tlog (fst (clear_session sid s)) = appends (graph_events ts (Some sid)) (s_tlog s).
Proof.
  intros I Si. unfold clear_session. rewrite Si.
  destruct (drop_edges_eq sid s es md I Si) as [d' [ts0 [Eq _]]].
  pose proof (drop_edges_nodup sid es s [] (NoDup_nil _)) as N.
  fold (drop_edges sid es s) in N. rewrite Eq in N |- *. cbn [fst snd] in *. intros <-.
  split; [exact N|]. rewrite (proj1 (graph_changed_tlog _ _ _)), tlog_set_metadata, tlog_remove_session.
  reflexivity.
Qed.

Lemma drop_tlog sid s es md ts : CInv s -> session_info sid s = Some (es, md) ->
  snd (drop_session sid s) = ts ->
  NoDup ts /\ s_tlog (fst (drop_session sid s)) = appends (graph_events ts (Some sid)) (s_tlog s).
Proof.
  intros I Si. unfold drop_session. rewrite Si.
  destruct (drop_edges_eq sid s es md I Si) as [d' [ts0 [Eq _]]].
  pose proof (drop_edges_nodup sid es s [] (NoDup_nil _)) as N.
  fold (drop_edges sid es s) in N. rewrite Eq in N |- *. cbn [fst snd] in *. intros <-.
  split; [exact N|]. rewrite (proj1 (graph_changed_tlog _ _ _)). unfold set_clients; sproj.
  rewrite tlog_set_metadata, tlog_remove_session. reflexivity.
Qed.

(** Some edge into [t] has appeared or disappeared. *)
Definition target_changed (d d' : dag) (t : topic) : Prop :=
  exists f, (has_edge d f t /\ ~ has_edge d' f t) \/ (~ has_edge d f t /\ has_edge d' f t).

Lemma unchanged_same d : forall t : topic, In t [] <-> target_changed d d t.
Proof.
  intros t. split; [intros K; destruct K|]. intros [f [[A B]|[A B]]]; contradiction.
Qed.

Lemma add_targets d f t o d' r : DInv d -> add_edge f t o d = (d', r) ->
  forall u, In u (match r with Appeared => [t] | _ => [] end) <-> target_changed d d' u.
Proof.
  intros I E u. destruct (add_edge_changed d f t o d' r I E) as [A B]. split.
  - destruct r; intros K; [destruct K as [<-|K]; [|destruct K]|destruct K|destruct K]. exists f. right. now apply A.
  - intros [g C]. destruct (dec (g, u) (f, t)) as [Eq|N].
    + injection Eq as -> ->. assert (K : ~ has_edge d f t /\ has_edge d' f t -> r = Appeared) by (intros; now apply A).
      destruct C as [[C D]|C]; [|rewrite (K C); now left].
      exfalso. apply D.
      pose proof (DInv_add d f t o I) as I'. rewrite E in I'. cbn [fst] in I'.
      apply (has_edge_owner d f t I) in C as [o' C]. apply (has_edge_owner d' f t I'). exists o'.
      pose proof (add_edge_owner d f t o (f, t) o' I) as O. rewrite E in O. apply O. now left.
    + pose proof (B g u N). tauto.
Qed.

Lemma remove_targets d f t o d' ch : DInv d -> remove_edge f t o d = (d', ch) ->
  forall u, In u (if ch : bool then [t] else []) <-> target_changed d d' u.
Proof.
  intros I E u. pose proof (remove_edge_changed d f t o d' ch I E) as A.
  pose proof (DInv_remove d f t o I) as I'. rewrite E in I'. cbn [fst] in I'.
  assert (O : forall e o', owner_of d' e o' <-> owner_of d e o' /\ ~ (e = (f, t) /\ o' = o)).
  { intros e o'. pose proof (remove_edge_owner d f t o e o' I) as O. rewrite E in O. exact O. }
  assert (Sub : forall a b, has_edge d' a b -> has_edge d a b).
  { intros a b H. apply (has_edge_owner d' a b I') in H as [o' H]. apply (has_edge_owner d a b I).
    exists o'. now apply O in H. }
  split.
  - destruct ch; intros K; [destruct K as [<-|K]; [|destruct K]|destruct K]. exists f. left. now apply A.
  - intros [g C]. destruct (dec (g, u) (f, t)) as [Eq|N].
    + injection Eq as -> ->. destruct C as [C|[C D]]; [rewrite (proj2 A C); now left|].
      now apply Sub in D.
    + exfalso. destruct C as [[C D]|[C D]]; [|now apply Sub in D].
      apply D. apply (has_edge_owner d g u I) in C as [o' C]. apply (has_edge_owner d' g u I').
      exists o'. apply O. split; [assumption|]. intros [X _]. congruence.
Qed.

Lemma cleared_targets sid d d' ts : DInv d -> cleared sid d d' ts ->
  forall u, In u ts <-> target_changed d d' u.
Proof.
  intros I C u. rewrite (cl_topics _ _ _ _ C). split.
  - intros [f H]. exists f. now left.
  - intros [f [H|[H K]]]; [now exists f|]. exfalso. apply H.
    apply (has_edge_owner d' f u (cl_dag _ _ _ _ C)) in K as [o K]. apply (has_edge_owner d f u I).
    exists o. now apply (cl_owner _ _ _ _ C) in K.
Qed.

(** The notifications a command asks for, if [ts] are the targets of the edges it
    changed. *)
Definition work_for (s : server) (l : label) (ts : list topic) : list work :=
  match l with
  | LPublish t => [WTopics [t]]
  | LSubscribe _ => [WSub (s_next s)]
  | LSessClear _ | LSessGone _ => [WTopics ts]
  | _ => match ts with [] => [] | _ => [WTopics ts] end
  end.

(** The session a command comes from. *)
Definition source (l : label) : option nat :=
  match l with
  | LSessConnect sid _ _ | LSessDisconnect sid _ _ | LSessClear sid | LSessGone sid => Some sid
  | _ => None
  end.

Definition units_of (s : server) (pid : nat) : list addr :=
  match process_info pid s with Some us => us | None => [] end.

Definition process_events (s s' : server) (l : label) : list tev :=
  match l with
  | LProcRegister pid _ | LProcOwn pid _ _ =>
      if same_set (units_of s pid) (units_of s' pid) then []
      else [mkTev PROCESS_CHANGED [] None (Some pid)]
  | LProcGone pid => [mkTev PROCESS_CHANGED [] None (Some pid)]
  | _ => []
  end.

Lemma same_set_spec a b : same_set a b = true <-> forall x, In x a <-> In x b.
Proof.
  unfold same_set. rewrite andb_true_iff, !forallb_forall. split.
  - intros [A B] x. split; intros H; apply (proj1 (mem_In _ _)); auto.
  - intros H. split; intros x I; apply (proj2 (mem_In _ _)); now apply H.
Qed.

Lemma same_set_refl a : same_set a a = true.
Proof. apply same_set_spec. tauto. Qed.

Lemma tlog_fold {A} (f : server -> A -> server) :
  (forall s a, s_tlog (f s a) = s_tlog s) -> forall l s, s_tlog (fold_left f l s) = s_tlog s.
Proof. intros H l; induction l as [|a l IH]; intros s; cbn; [reflexivity|]. now rewrite IH. Qed.

Lemma tlog_set_result req r s : s_tlog (set_result req r s) = s_tlog s.
Proof. unfold set_result. destruct (get req (s_fut s)) as [[]|]; reflexivity. Qed.

Lemma tlog_process_gone pid s :
  s_tlog (process_gone pid s) = append (mkTev PROCESS_CHANGED [] None (Some pid)) (s_tlog s).
Proof.
  change (process_gone pid s) with
      (let s2 := remove_settings_for_process pid (fold_left gone_step (requests_of pid s) s) in
       let s3 := append_topology_event (mkTev PROCESS_CHANGED [] None (Some pid)) s2 in
       set_clients (del pid (s_clients s3)) s3).
  set (s1 := fold_left gone_step (requests_of pid s) s).
  assert (E1 : s_tlog s1 = s_tlog s).
  { apply tlog_fold. intros s0 q. unfold gone_step. destruct (get q (s_pend s0)); [|reflexivity].
    rewrite tlog_set_result. reflexivity. }
  assert (E2 : s_tlog (remove_settings_for_process pid s1) = s_tlog s1).
  { unfold remove_settings_for_process. apply tlog_fold. intros s0 a.
    destruct (get a (s_set s0)) as [st|]; [|reflexivity].
    destruct (st_sess st); [|reflexivity]. destruct (initial_settings _ _ _); reflexivity. }
  cbn. now rewrite E2, E1.
Qed.

Lemma tlog_process_changed pid a b s :
  s_tlog (process_changed pid a b s) =
  appends (if same_set a b then [] else [mkTev PROCESS_CHANGED [] None (Some pid)]) (s_tlog s).
Proof. unfold process_changed. now destruct (same_set a b). Qed.

Lemma step_topology s l s' r w : CInv s -> step s l = Some (s', r, w) ->
  exists ts, NoDup ts /\ (forall t, In t ts <-> target_changed (s_dag s) (s_dag s') t) /\
    w = work_for s l ts /\
    s_tlog s' = appends (graph_events ts (source l) ++ process_events s s' l) (s_tlog s).
Proof.
  intros I E. pose proof (c_dag _ _ _ I) as D.
  assert (Same : s_dag s' = s_dag s -> w = work_for s l [] -> s_tlog s' = appends (process_events s s' l) (s_tlog s) ->
     exists ts, NoDup ts /\ (forall t, In t ts <-> target_changed (s_dag s) (s_dag s') t) /\
    w = work_for s l ts /\ s_tlog s' = appends (graph_events ts (source l) ++ process_events s s' l) (s_tlog s)).
  { intros Ed Ew Et. exists []. split; [constructor|]. rewrite Ed. split; [apply unchanged_same|]. now split. }
  destruct l; cbn [step] in E.
  - injection E as <- <- <-. now apply Same.
  - injection E as <- <- <-. now apply Same.
  - destruct (get pub (s_clients s)) as [[]|]; injection E as <- <- <-; now apply Same.
  - destruct (get id (s_clients s)) as [[]|]; try discriminate; injection E as <- <- <-; now apply Same.
  - clear Same. rewrite connect_owner_none in E. destruct (add_edge f t None (s_dag s)) as [d' a] eqn:A.
    cbn [fst snd] in E. pose proof (add_targets _ _ _ _ _ _ D A) as T.
    exists (match a with Appeared => [t] | _ => [] end).
    split; [destruct a; repeat constructor; intros []|].
    destruct a; injection E as <- <- <-; (split; [exact T|split; reflexivity]).
  - clear Same. rewrite disconnect_owner_none in E. destruct (remove_edge f t None (s_dag s)) as [d' ch] eqn:A.
    cbn [fst snd] in E. pose proof (remove_targets _ _ _ _ _ _ D A) as T.
    exists (if ch then [t] else []). split; [destruct ch; repeat constructor; intros []|].
    injection E as <- <- <-. destruct ch; (split; [exact T|split; reflexivity]).
  - injection E as <- <- <-. now apply Same.
  - clear Same. destruct (session_info sid s) as [[es md]|] eqn:Si; [|discriminate].
    rewrite (connect_owner_some f t sid s es md Si) in E.
    destruct (add_edge f t (Some sid) (s_dag s)) as [d' a] eqn:A.
    cbn [fst snd] in E. pose proof (add_targets _ _ _ _ _ _ D A) as T.
    exists (match a with Appeared => [t] | _ => [] end).
    split; [destruct a; repeat constructor; intros []|].
    destruct a; injection E as <- <- <-; (split; [exact T|split; reflexivity]).
  - clear Same. destruct (session_info sid s) as [[es md]|] eqn:Si; [|discriminate].
    rewrite (disconnect_owner_some f t sid s es md Si) in E.
    destruct (remove_edge f t (Some sid) (s_dag s)) as [d' ch] eqn:A.
    cbn [fst snd] in E. pose proof (remove_targets _ _ _ _ _ _ D A) as T.
    exists (if ch then [t] else []). split; [destruct ch; repeat constructor; intros []|].
    injection E as <- <- <-. destruct ch; (split; [exact T|split; reflexivity]).
  - destruct (session_info sid s) as [[es md0]|] eqn:Si; [|discriminate].
    unfold register_session in E. rewrite Si in E.
    destruct (metadata_collisions sid md s) eqn:C; injection E as <- <- <-; [|now apply Same].
    apply Same; [| reflexivity |].
    + pose proof (core_apply sid md (set_metadata sid (Some md) (remove_settings_for_session sid s))) as K.
      apply (f_equal (fun p => snd (fst p))) in K; cbn [core fst snd] in K. rewrite K.
      pose proof (core_remove_session sid s) as K1. apply (f_equal (fun p => snd (fst p))) in K1; cbn [core fst snd] in K1.
      unfold set_metadata. destruct (session_info sid (remove_settings_for_session sid s)) as [[]|]; exact K1.
    + cbn [process_events fold_left]. unfold apply_metadata. sproj.
      unfold set_owned; sproj. rewrite tlog_fold by reflexivity.
      now rewrite tlog_set_metadata, tlog_remove_session.
  - clear Same. destruct (session_info sid s) as [[es md]|] eqn:Si; [|discriminate].
    destruct (clear_session sid s) as [s1 ts] eqn:Cl.
    destruct (clear_tlog sid s es md ts I Si) as [N T]; [now rewrite Cl|]. rewrite Cl in T. cbn [fst] in T.
    destruct (clear_session_eq sid s es md I Si) as [d' [ts' [x [tl [Eq [C [G _]]]]]]].
    rewrite Cl in Eq. injection Eq as -> ->. injection E as <- <- <-.
    exists ts'. split; [exact N|]. split; [exact (cleared_targets _ _ _ _ D C)|]. split; [reflexivity|].
    cbn [process_events]. rewrite app_nil_r. exact T.
  - clear Same. destruct (session_info sid s) as [[es md]|] eqn:Si; [|discriminate].
    destruct (drop_session sid s) as [s1 ts] eqn:Cl.
    destruct (drop_tlog sid s es md ts I Si) as [N T]; [now rewrite Cl|]. rewrite Cl in T. cbn [fst] in T.
    destruct (drop_session_eq sid s es md I Si) as [d' [ts' [x [tl [Eq [C [G _]]]]]]].
    rewrite Cl in Eq. injection Eq as -> ->. injection E as <- <- <-.
    exists ts'. split; [exact N|]. split; [exact (cleared_targets _ _ _ _ D C)|]. split; [reflexivity|].
    cbn [process_events]. rewrite app_nil_r. exact T.
  - injection E as <- <- <-. now apply Same.
  - destruct (process_info pid s) as [us0|] eqn:Pi; [|discriminate].
    unfold register_process in E. rewrite Pi in E.
    destruct (conflicts pid us s) eqn:C; injection E as <- <- <-.
    + apply Same; [now unfold process_changed; destruct (same_set _ _)|reflexivity|].
      rewrite tlog_process_changed. cbn [process_events]. unfold units_of at 1. rewrite Pi.
      assert (U : units_of (process_changed pid us0 (to_set us)
         (set_clients (put pid (CProc (to_set us)) (s_clients s)) s)) pid = to_set us).
      { unfold process_changed. destruct (same_set us0 (to_set us)); unfold units_of, process_info; cbn;
          now rewrite get_put_eq. }
      rewrite U. reflexivity.
    + apply Same; [reflexivity|reflexivity|]. cbn [process_events]. now rewrite same_set_refl.
  - destruct (process_info pid s) as [us0|] eqn:Pi; [|discriminate].
    unfold update_ownership in E. rewrite Pi in E.
    destruct (conflicts pid added s) eqn:C; injection E as <- <- <-.
    + match goal with |- context [process_changed pid us0 ?u _] => set (us := u) in * end.
      apply Same; [now unfold process_changed; destruct (same_set _ _)|reflexivity|].
      rewrite tlog_process_changed. cbn [process_events]. unfold units_of at 1. rewrite Pi.
      assert (U : units_of (process_changed pid us0 us
         (set_clients (put pid (CProc us) (s_clients s)) s)) pid = us).
      { unfold process_changed. destruct (same_set us0 us); unfold units_of, process_info; cbn;
          now rewrite get_put_eq. }
      rewrite U. reflexivity.
    + apply Same; [reflexivity|reflexivity|]. cbn [process_events]. now rewrite same_set_refl.
  - destruct (process_info pid s) as [us0|] eqn:Pi; [|discriminate].
    unfold settings_update in E. rewrite Pi in E. destruct (mem a us0); injection E as <- <- <-; now apply Same.
  - destruct (process_info pid s) as [us0|] eqn:Pi; [|discriminate]. injection E as <- <- <-.
    pose proof (core_route_response pid req body s) as K. apply (f_equal (fun p => snd (fst p))) in K; cbn [core fst snd] in K.
    apply Same; [exact K|reflexivity|]. cbn. unfold route_response. destruct (get req (s_pend s)); [|reflexivity].
    destruct (eqd n pid); now rewrite tlog_set_result.
  - destruct (process_info pid s) as [us0|] eqn:Pi; [|discriminate]. injection E as <- <- <-.
    pose proof (core_process_gone pid s) as K. apply (f_equal (fun p => snd (fst p))) in K; cbn [core fst snd] in K.
    apply Same; [exact K|reflexivity|]. cbn. apply tlog_process_gone.
  - injection E as <- <- <-.
    pose proof (core_route_request u write_ok s) as K. apply (f_equal (fun p => snd (fst p))) in K; cbn [core fst snd] in K.
    apply Same; [exact K|reflexivity|]. cbn. unfold route_request. sproj.
    destruct (process_owner u (s_clients s)); [|reflexivity]. now destruct write_ok.
  - destruct (get req (s_fut s)) as [[]|] eqn:G; try discriminate; injection E as <- <- <-. now apply Same.
  - destruct (get req (s_fut s)) as [[]|] eqn:G; try discriminate; injection E as <- <- <-. now apply Same.
  - destruct (get req (s_fut s)) as [[]|] eqn:G; try discriminate; injection E as <- <- <-. now apply Same.
Qed.
