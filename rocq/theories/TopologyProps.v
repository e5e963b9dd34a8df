(* Property C60: the topology log records every change of the graph and of the
   processes' units, and nothing else. *)

From Coq Require Import String List Arith Bool.
From Verif Require Import Dict DagModel DagSpec DagProofs EventLogModel ServerModel ServerSpec ServerProofs
  ServerTopology ServerProps.
Import ListNotations.

Definition is_graph (e : tev) : bool := match te_kind e with GRAPH_CHANGED => true | _ => false end.
Definition is_process (e : tev) : bool := match te_kind e with PROCESS_CHANGED => true | _ => false end.

(** An edge into [t] has appeared or disappeared. *)
Definition edge_changed_into (s s' : server) (t : topic) : Prop :=
  exists f, ~ (has_edge (s_dag s) f t <-> has_edge (s_dag s') f t).

(** The process's units have changed, or it has gone. *)
Definition process_differs (s s' : server) (pid : nat) : Prop :=
  ~ (forall u, owns_unit s pid u <-> owns_unit s' pid u) \/
  ((exists us, In (pid, CProc us) (s_clients s)) /\ forall us, ~ In (pid, CProc us) (s_clients s')).

Lemma has_edge_dec d a b : has_edge d a b \/ ~ has_edge d a b.
Proof.
  unfold has_edge, edge_in.
  destruct (existsb (fun p => eqd a (fst p) && mem b (snd p)) (d_graph d)) eqn:E.
  - left. apply existsb_exists in E as [[c l] [I E]]. apply andb_true_iff in E as [E1 E2].
    apply (proj1 (eqd_true _ _)) in E1. apply (proj1 (mem_In _ _)) in E2. cbn in *. subst. eauto.
  - right. intros [l [I J]].
    assert (K : existsb (fun p => eqd a (fst p) && mem b (snd p)) (d_graph d) = true).
    { apply existsb_exists. exists (a, l). split; [assumption|]. cbn. rewrite eqd_refl. cbn. now apply mem_In. }
    congruence.
Qed.

Lemma target_changed_iff s s' t : target_changed (s_dag s) (s_dag s') t <-> edge_changed_into s s' t.
Proof.
  split; intros [f H]; exists f.
  - tauto.
  - destruct (has_edge_dec (s_dag s) f t), (has_edge_dec (s_dag s') f t); tauto.
Qed.

Lemma graph_events_graph ts src : filter is_graph (graph_events ts src) = graph_events ts src /\
  filter is_process (graph_events ts src) = [].
Proof. now destruct ts. Qed.

Lemma process_events_kind s s' l : filter is_graph (process_events s s' l) = [] /\
  filter is_process (process_events s s' l) = process_events s s' l.
Proof. destruct l; cbn; auto; destruct (same_set _ _); auto. Qed.

(** Each command appends at most one GRAPH_CHANGED event, exactly when the set of
    edges changes; it names the session and exactly the topics into which an
    edge appeared or disappeared. *)
Theorem C60_graph_changes_are_logged :
  forall (sl tl : nat) (s : server) (h : hist) (l : label) (s' : server) (r : reply) (w : list work),
  run sl tl s h -> step s l = Some (s', r, w) ->
  exists new, s_tlog s' = fold_left (fun L e => append e L) new (s_tlog s) /\
   ((filter is_graph new = [] /\ forall t, ~ edge_changed_into s s' t) \/
    (exists ts, filter is_graph new = [mkTev GRAPH_CHANGED ts (source l) None] /\ ts <> [] /\ NoDup ts /\
       forall t, In t ts <-> edge_changed_into s s' t)).
Proof.
  intros sl tl s h l s' r w R E.
  destruct (step_topology s l s' r w (CInv_run _ _ _ _ R) E) as [ts [N [T [_ L]]]].
  eexists. split; [exact L|]. rewrite filter_app, (proj1 (graph_events_graph _ _)), (proj1 (process_events_kind _ _ _)), app_nil_r.
  assert (T' : forall t, In t ts <-> edge_changed_into s s' t) by (intros t; rewrite <- target_changed_iff; apply T).
  destruct ts as [|t0 ts]; [left; split; [reflexivity|]|right; exists (t0 :: ts); repeat split; auto; try discriminate; apply T'].
  intros t K. apply T' in K. destruct K.
Qed.
Print Assumptions C60_graph_changes_are_logged.

(** Each command appends at most one PROCESS_CHANGED event, and only if it is about
    that process: exactly when its units change or it goes. *)
Theorem C60_process_changes_are_logged :
  forall (sl tl : nat) (s : server) (h : hist) (l : label) (s' : server) (r : reply) (w : list work),
  run sl tl s h -> step s l = Some (s', r, w) ->
  exists new, s_tlog s' = fold_left (fun L e => append e L) new (s_tlog s) /\
   ((filter is_process new = [] /\ forall p, ~ process_differs s s' p) \/
    (exists pid, filter is_process new = [mkTev PROCESS_CHANGED [] None (Some pid)] /\
       process_differs s s' pid /\ forall p, process_differs s s' p -> p = pid)).
Proof.
  intros sl tl s h l s' r w R E. pose proof (CInv_run _ _ _ _ R) as C.
  destruct (step_topology s l s' r w C E) as [ts [_ [_ [_ L]]]].
  eexists. split; [exact L|].
  rewrite filter_app, (proj2 (graph_events_graph _ _)), (proj2 (process_events_kind _ _ _)). cbn [app].
  pose proof (CInv_effect _ _ _ _ C (step_effect _ _ _ _ _ C E)) as C'.
  assert (P : forall st p us, CInv st -> (In (p, CProc us) (s_clients st) <-> process_info p st = Some us)).
  { intros st p us Cs. unfold process_info. split.
    - intros I. apply In_get in I; [|apply (c_nodup _ _ _ Cs)]. now rewrite I.
    - destruct (get p (s_clients st)) as [[]|] eqn:G; try discriminate. intros [= <-]. now apply get_In. }
  assert (U : forall st p u, CInv st -> (owns_unit st p u <-> In u (units_of st p))).
  { intros st p u Cs. unfold owns_unit, units_of. split.
    - intros [us [I J]]. apply (P st p us Cs) in I. now rewrite I.
    - destruct (process_info p st) as [us|] eqn:G; [|intros K; destruct K].
      intros J. exists us. split; [now apply (P st p us Cs)|assumption]. }
  (* processes whose entry is the same do not differ *)
  assert (Same : forall p, process_info p s' = process_info p s -> ~ process_differs s s' p).
  { intros p Eq [H|[[us I] H]].
    - apply H. intros u. rewrite (U s p u C), (U s' p u C'). unfold units_of. now rewrite Eq.
    - apply (P s p us C) in I. apply (H us). apply (P s' p us C'). congruence. }
  assert (Other : forall s1, core s1 = core s -> forall p, process_info p s1 = process_info p s).
  { intros s1 K p. unfold process_info. apply (f_equal snd) in K. cbn [core snd] in K. now rewrite K. }
  assert (Put : forall q c x, match c with CProc [] => True | CProc _ => False | _ => True end ->
     match get q (s_clients s) with Some (CProc _) => False | _ => True end ->
     s_clients s' = put q c (s_clients s) ->
     x = [] -> (x = [] /\ forall p, ~ process_differs s s' p) \/ exists pid, x = [mkTev PROCESS_CHANGED [] None (Some pid)] /\
       process_differs s s' pid /\ forall p, process_differs s s' p -> p = pid).
  { intros q c x Hc Hq Ec ->. left. split; [reflexivity|]. intros p.
    assert (Pi : process_info p s' = match dec p q with
        | left _ => match c with CProc us => Some us | _ => None end | right _ => process_info p s end).
    { unfold process_info. rewrite Ec, get_put. destruct (dec p q); [now destruct c|reflexivity]. }
    destruct (dec p q) as [->|Np]; [|now apply Same].
    intros [H|[[us I] _]].
    - apply H. intros u. rewrite (U s q u C), (U s' q u C'). unfold units_of. rewrite Pi. unfold process_info.
      destruct (get q (s_clients s)) as [[]|]; try contradiction; destruct c as [| | | |[]]; try contradiction; tauto.
    - apply In_get in I; [|apply (c_nodup _ _ _ C)]. rewrite I in Hq. exact Hq. }
  assert (Del : forall q, match get q (s_clients s) with Some (CProc _) => False | _ => True end ->
     s_clients s' = del q (s_clients s) ->
     (@nil tev = [] /\ forall p, ~ process_differs s s' p) \/ exists pid, [] = [mkTev PROCESS_CHANGED [] None (Some pid)] /\
       process_differs s s' pid /\ forall p, process_differs s s' p -> p = pid).
  { intros q Hq Ec. left. split; [reflexivity|]. intros p. apply Same. unfold process_info. rewrite Ec, get_del.
    destruct (dec p q) as [->|]; [|reflexivity]. destruct (get q (s_clients s)) as [[]|]; try reflexivity. contradiction. }
  assert (SameAll : (forall p, process_info p s' = process_info p s) ->
     (@nil tev = [] /\ forall p, ~ process_differs s s' p) \/ exists pid, [] = [mkTev PROCESS_CHANGED [] None (Some pid)] /\
       process_differs s s' pid /\ forall p, process_differs s s' p -> p = pid).
  { intros K. left. split; [reflexivity|]. intros p. apply Same, K. }
  assert (Units : forall pid us us0, process_info pid s = Some us0 -> s_clients s' = put pid (CProc us) (s_clients s) ->
     let x := if same_set (units_of s pid) (units_of s' pid) then [] else [mkTev PROCESS_CHANGED [] None (Some pid)] in
     (x = [] /\ forall p, ~ process_differs s s' p) \/ exists pid, x = [mkTev PROCESS_CHANGED [] None (Some pid)] /\
       process_differs s s' pid /\ forall p, process_differs s s' p -> p = pid).
  { intros pid us us0 Pi Ec x.
    assert (Pi' : forall p, process_info p s' = match dec p pid with left _ => Some us | right _ => process_info p s end).
    { intros p. unfold process_info. rewrite Ec, get_put. now destruct (dec p pid). }
    assert (Oth : forall p, p <> pid -> ~ process_differs s s' p).
    { intros p Np. apply Same. rewrite Pi'. now destruct (dec p pid). }
    destruct (same_set (units_of s pid) (units_of s' pid)) eqn:Ss.
    - left. split; [reflexivity|]. intros p. destruct (Nat.eq_dec p pid) as [->|Np]; [|now apply Oth].
      pose proof (proj1 (same_set_spec _ _) Ss) as K. intros [H|[_ H]].
      + apply H. intros u. rewrite (U s pid u C), (U s' pid u C'). apply K.
      + apply (H us). apply (P s' pid us C'). rewrite Pi'. now destruct (dec pid pid).
    - right. exists pid. split; [reflexivity|]. split.
      + left. intros H. assert (K : same_set (units_of s pid) (units_of s' pid) = true).
        { apply same_set_spec. intros u. rewrite <- (U s pid u C), <- (U s' pid u C'). apply H. }
        congruence.
      + intros p Hp. destruct (Nat.eq_dec p pid) as [->|Np]; [reflexivity|]. exfalso. now apply (Oth p Np). }
  assert (Fr : match get (s_next s) (s_clients s) with Some (CProc _) => False | _ => True end).
  { destruct (get (s_next s) (s_clients s)) eqn:G; [|exact Logic.I]. apply get_Some_key, (c_ids _ _ _ C) in G.
    exfalso. revert G. apply Nat.lt_irrefl. }
  assert (Se : forall sid es md, session_info sid s = Some (es, md) ->
     match get sid (s_clients s) with Some (CProc _) => False | _ => True end).
  { intros sid es md. unfold session_info. destruct (get sid (s_clients s)) as [[]|]; intros K; try exact Logic.I; discriminate. }
  pose proof (step_effect s l s' r w C E) as H. clear E L. revert P U Same Put Del SameAll Units C'.
  destruct H as
    [l c s' Hc Hl E | l r Hr | id c s' G Hc E | f t s' d' r tl0 A N E | f t s' d' ch tl0 A E
    | sid f t s' d' r tl0 es md Si A N E | sid f t s' d' ch tl0 es md Si A E
    | sid md es md0 s' Si Cl E | sid es md d' ts0 x tl0 s' Si Cl G N E | sid es md d' ts0 x tl0 s' Si Cl G N E
    | pid us us0 s' tl0 Pi Cl E | pid added removed us0 s' tl0 Pi Cl E | pid a v us s' msid Pi Ia M E
    | pid req body us Pi | pid us Pi | u ok | req G | req G | req r G ];
    intros P U Same Put Del SameAll Units C'; try subst s'; cbn [process_events].
  - destruct Hl as [[-> ->]|[[-> ->]|[[t [-> ->]]|[[t [-> ->]]|[p [t [-> [-> _]]]]]]]];
      (eapply Put; [|exact Fr|reflexivity|reflexivity]); exact Logic.I.
  - destruct l; try (apply SameAll; reflexivity); try contradiction; cbn [process_events];
      try (rewrite same_set_refl; apply SameAll; reflexivity).
  - eapply Del; [|reflexivity]. rewrite G. destruct c; auto.
  - apply SameAll; reflexivity.
  - apply SameAll; reflexivity.
  - eapply Put; [|exact (Se _ _ _ Si)|reflexivity|reflexivity]. exact Logic.I.
  - eapply Put; [|exact (Se _ _ _ Si)|reflexivity|reflexivity]. exact Logic.I.
  - pose proof (core_remove_session sid s) as K1. set (s1 := remove_settings_for_session sid s) in *.
    assert (Kc : s_clients s1 = s_clients s) by (apply (f_equal snd) in K1; exact K1).
    assert (Si1 : session_info sid s1 = Some (es, md0)) by (unfold session_info; rewrite Kc; exact Si).
    eapply Put with (q := sid) (c := CSess es (Some md)); [exact Logic.I|exact (Se _ _ _ Si)| |reflexivity].
    pose proof (core_apply sid md (set_metadata sid (Some md) s1)) as K.
    apply (f_equal snd) in K. cbn [core snd] in K. rewrite K.
    rewrite (ServerFrames.set_metadata_eq _ _ _ _ _ Si1). cbn [set_clients s_clients]. now rewrite Kc.
  - eapply Put; [|exact (Se _ _ _ Si)|reflexivity|reflexivity]. exact Logic.I.
  - eapply Del; [|reflexivity]. exact (Se _ _ _ Si).
  - eapply Units; [exact Pi|reflexivity].
  - eapply Units; [exact Pi|reflexivity].
  - apply SameAll; reflexivity.
  - apply SameAll. apply Other, core_route_response.
  - assert (Pg : forall p, process_info p (process_gone pid s) =
        match dec p pid with left _ => None | right _ => process_info p s end).
    { intros p. pose proof (core_process_gone pid s) as K. apply (f_equal snd) in K. cbn [core snd] in K.
      unfold process_info. rewrite K, get_del. now destruct (dec p pid). }
    right. exists pid. split; [reflexivity|]. split.
    + right. split; [exists us; now apply (P s pid us C)|]. intros us1 I. apply (P _ pid us1 C') in I.
      rewrite Pg in I. destruct (dec pid pid); [discriminate|congruence].
    + intros p Hp. destruct (Nat.eq_dec p pid) as [->|Np]; [reflexivity|]. exfalso. revert Hp. apply Same.
      rewrite Pg. now destruct (dec p pid).
  - apply SameAll. intros p. unfold process_info. pose proof (core_route_request u ok s) as K.
    apply (f_equal snd) in K. cbn [core snd] in K. now rewrite K.
  - apply SameAll; reflexivity.
  - apply SameAll; reflexivity.
  - apply SameAll; reflexivity.
Qed.
Print Assumptions C60_process_changes_are_logged.

Local Open Scope string_scope.
Local Open Scope nat_scope.
Local Open Scope list_scope.

(** In the demo of ServerProps.v: three edges appeared (the second owner of a -> b
    added none) and process 2 got a unit; closing session 0 removes b -> c. *)
Example C60_case :
  run 8 8 demo_state demo_hist /\
  map (fun e => (te_kind (snd e), te_topics (snd e), te_sess (snd e))) (l_events (s_tlog demo_state)) =
    [(GRAPH_CHANGED, ["b"], Some 0); (GRAPH_CHANGED, ["c"], Some 0); (GRAPH_CHANGED, ["y"], None);
     (PROCESS_CHANGED, [], None)] /\
  option_map (fun p => map (fun e => (te_kind (snd e), te_topics (snd e), te_sess (snd e)))
                           (skipn 4 (l_events (s_tlog (fst p)))))
             (exec demo_state demo_hist [LSessGone 0]) = Some [(GRAPH_CHANGED, ["c"], Some 0)].
Proof. split; [exact demo_run|]. vm_compute. auto. Qed.
