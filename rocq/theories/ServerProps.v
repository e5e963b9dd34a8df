(* Properties C29 and C33-C37 of the graph server, over all executions of
   ServerModel.v, with a concrete execution beside each. *)

From Coq Require Import String List Arith Bool Lia.
From Verif Require Import Dict DagModel DagSpec EventLogModel ServerModel ServerSpec ServerProofs ServerEvents.
Import ListNotations.

(** Running a list of labels, to exhibit executions. *)
Fixpoint exec (s : server) (h : hist) (ls : list label) : option (server * hist) :=
  match ls with
  | [] => Some (s, h)
  | l :: r => match step s l with
              | Some (s', rp, _) => exec s' (h ++ [(l, rp)]) r
              | None => None
              end
  end.

Lemma exec_run sl tl ls : forall s h s' h', run sl tl s h -> exec s h ls = Some (s', h') -> run sl tl s' h'.
Proof.
  induction ls as [|l ls IH]; intros s h s' h' R E; cbn [exec] in E; [now injection E as <- <-|].
  destruct (step s l) as [[[s1 r] w]|] eqn:S; [|discriminate].
  eapply IH; [|exact E]. eapply run_step; eauto.
Qed.

Definition comps (l : list (addr * value)) : metadata := map (fun p => (fst p, mkComp (fst p) (snd p))) l.

Lemma keyed_comps l : NoDup (map fst l) -> keyed (comps l).
Proof.
  intros ND. unfold comps. split.
  - rewrite map_map. cbn. exact ND.
  - intros a c I. apply in_map_iff in I as [p [E _]]. injection E as <- <-. reflexivity.
Qed.

Local Open Scope string_scope.
Local Open Scope nat_scope.
Local Open Scope list_scope.

(** Two sessions (0 and 1) share the edge a -> b; session 0 also owns b -> c and
    describes U (initial 1) and V (initial 2); process 2 owns U and reports 7. *)
Definition demo : list label :=
  [ LSession; LSession; LProcess;
    LSessConnect 0 "a" "b"; LSessConnect 1 "a" "b"; LSessConnect 0 "b" "c"; LConnect "x" "y";
    LSessRegister 0 (comps [("U", 1); ("V", 2)]);
    LSessRegister 1 (comps [("V", 9)]);            (* collides: refused *)
    LProcRegister 2 ["U"]; LProcSettings 2 "U" 7 ].

Definition demo_state : server :=
  match exec (new_server 8 8) [] demo with Some (s, _) => s | None => new_server 8 8 end.
Definition demo_hist : hist :=
  match exec (new_server 8 8) [] demo with Some (_, h) => h | None => [] end.

Lemma demo_run : run 8 8 demo_state demo_hist.
Proof.
  apply (exec_run 8 8 demo (new_server 8 8) []); [constructor|]. vm_compute. reflexivity.
Qed.

Lemma demo_keyed : well_keyed demo_hist.
Proof.
  intros sid md r I. vm_compute in I.
  repeat (destruct I as [I|I]; [first [discriminate I|injection I as <- <- <-]|]); [| |destruct I].
  - apply (keyed_comps [("U", 1); ("V", 2)]). repeat constructor; cbn; intuition discriminate.
  - apply (keyed_comps [("V", 9)]). repeat constructor; cbn; tauto.
Qed.

(* ------------------------------------------------------------------ C29 *)

(** At any time the owners the server lists for an edge are those who connected it
    and have not taken it back: by disconnecting it, or, for a session, by
    clearing itself or closing. *)
Theorem C29_owners_are_those_who_connected_and_kept_it :
  forall (sl tl : nat) (s : server) (h : hist), run sl tl s h ->
  forall (f t : topic) (o : owner), listed_owner s f t o <-> holds_edge h f t o.
Proof. exact owner_history. Qed.
Print Assumptions C29_owners_are_those_who_connected_and_kept_it.

(** When a session is cleared or closes, exactly its own ownerships end (so an
    edge survives iff someone else owns it), every other client keeps what it
    has, the session describes nothing any more, and from the settings snapshot
    disappear exactly the components it described that no process reports. *)
Theorem C29_closing_removes_exactly_its_own :
  forall (sl tl : nat) (s : server) (h : hist) (l : label) (sid : nat) (s' : server) (r : reply)
         (w : list work),
  run sl tl s h -> well_keyed h ->
  l = LSessClear sid \/ l = LSessGone sid -> step s l = Some (s', r, w) ->
  (forall f t o, listed_owner s' f t o <-> listed_owner s f t o /\ o <> Some sid) /\
  (forall f t, has_edge (s_dag s') f t <-> exists o, listed_owner s f t o /\ o <> Some sid) /\
  (forall q c, q <> sid -> (In (q, c) (s_clients s') <-> In (q, c) (s_clients s))) /\
  (forall a, ~ describes s' sid a) /\
  (forall a, describes s sid a -> (forall p v, ~ reported h a p v) -> settings_snapshot s' a = None) /\
  (forall a, ~ (describes s sid a /\ forall p v, ~ reported h a p v) ->
     settings_snapshot s' a = settings_snapshot s a).
Proof.
  intros sl tl s h l sid s' r w R Wk Hl E.
  destruct (session_removed sl tl s h l sid s' r w R Wk Hl E) as [A [B [C [D F]]]].
  split; [exact A|]. split.
  { intros f t. pose proof (CInv_run _ _ _ _ (run_step sl tl s h l s' r w R E)) as I'.
    rewrite (DagProofs.has_edge_owner (s_dag s') f t (c_dag _ _ _ I')).
    split; intros [o O]; exists o; now apply A. }
  split; [exact B|]. split; [exact C|]. split.
  - intros a Da Na. rewrite D. destruct (settings_snapshot s a) eqn:S; [|reflexivity].
    assert (K : settings_snapshot s a <> None) by congruence.
    assert (X : settings_snapshot s' a = None) by (apply (F a K); auto).
    rewrite D, S in X. exact X.
  - intros a N. rewrite D. destruct (settings_snapshot s a) eqn:S; [|reflexivity].
    destruct (get a (s_set s')) eqn:G; [reflexivity|]. exfalso. apply N.
    assert (K : settings_snapshot s a <> None) by congruence.
    apply (F a K). unfold settings_snapshot. now rewrite G.
Qed.
Print Assumptions C29_closing_removes_exactly_its_own.

(** The shared edge survives, b -> c goes, x -> y stays; V leaves the snapshot, U
    stays because process 2 reports it. *)
Example C29_case :
  exists s' r w, run 8 8 demo_state demo_hist /\ well_keyed demo_hist /\
    step demo_state (LSessGone 0) = Some (s', r, w) /\
    In ("b", "c") (map fst (d_owners (s_dag demo_state))) /\
    map fst (d_owners (s_dag s')) = [("a", "b"); ("x", "y")] /\
    settings_snapshot demo_state "V" = Some 2 /\ settings_snapshot s' "V" = None /\
    settings_snapshot s' "U" = Some 7.
Proof.
  eexists _, _, _. split; [exact demo_run|]. split; [exact demo_keyed|].
  split; [vm_compute; reflexivity|]. vm_compute. intuition.
Qed.

(* ------------------------------------------------------------------ C33 *)

Theorem C33_one_process_per_unit :
  forall (sl tl : nat) (s : server) (h : hist), run sl tl s h ->
  forall (p q : nat) (u : addr), owns_unit s p u -> owns_unit s q u -> p = q.
Proof. exact unit_owner_unique. Qed.
Print Assumptions C33_one_process_per_unit.

(** A live process's registration is refused iff one of the units belongs to
    another live process; a refusal changes nothing, an acceptance gives the
    process exactly those units. *)
Theorem C33_register_accepted_iff_free :
  forall (sl tl : nat) (s : server) (h : hist) (pid : nat) (us : list addr), run sl tl s h ->
  (exists vs, In (pid, CProc vs) (s_clients s)) ->
  exists s' r w, step s (LProcRegister pid us) = Some (s', r, w) /\
   ((r = RpError /\ s' = s /\ exists u q, In u us /\ q <> pid /\ owns_unit s q u) \/
    (r = RpComplete /\ (forall u q, In u us -> q <> pid -> ~ owns_unit s q u) /\
     forall q u, owns_unit s' q u <-> (q = pid /\ In u us) \/ (q <> pid /\ owns_unit s q u))).
Proof. exact claim_accepted_iff. Qed.
Print Assumptions C33_register_accepted_iff_free.

(** The same for an ownership update, which adds units and then removes some. *)
Theorem C33_ownership_update_accepted_iff_free :
  forall (sl tl : nat) (s : server) (h : hist) (pid : nat) (added removed : list addr), run sl tl s h ->
  (exists vs, In (pid, CProc vs) (s_clients s)) ->
  exists s' r w, step s (LProcOwn pid added removed) = Some (s', r, w) /\
   ((r = RpError /\ s' = s /\ exists u q, In u added /\ q <> pid /\ owns_unit s q u) \/
    (r = RpComplete /\ (forall u q, In u added -> q <> pid -> ~ owns_unit s q u) /\
     forall q u, owns_unit s' q u <->
       (q = pid /\ (owns_unit s pid u \/ In u added) /\ ~ In u removed) \/
       (q <> pid /\ owns_unit s q u))).
Proof. exact ownership_accepted_iff. Qed.
Print Assumptions C33_ownership_update_accepted_iff_free.

(** Process 3 may not take U from process 2, but may once process 2 is gone. *)
Example C33_case :
  let run1 := exec demo_state demo_hist [LProcess; LProcRegister 3 ["W"; "U"]] in
  let run2 := exec demo_state demo_hist [LProcess; LProcGone 2; LProcRegister 3 ["W"; "U"]] in
  option_map (fun p => (snd (last (snd p) (LSession, RpNone)), get 3 (s_clients (fst p)))) run1
    = Some (RpError, Some (CProc [])) /\
  option_map (fun p => (snd (last (snd p) (LSession, RpNone)), get 3 (s_clients (fst p)))) run2
    = Some (RpComplete, Some (CProc ["W"; "U"])).
Proof. vm_compute. auto. Qed.

(* ------------------------------------------------------------------ C34 *)

Theorem C34_one_session_per_component :
  forall (sl tl : nat) (s : server) (h : hist), run sl tl s h ->
  forall (p q : nat) (a : addr), describes s p a -> describes s q a -> p = q.
Proof. exact describer_unique. Qed.
Print Assumptions C34_one_session_per_component.

Theorem C34_register_accepted_iff_no_collision :
  forall (sl tl : nat) (s : server) (h : hist) (sid : nat) (md : metadata), run sl tl s h ->
  (exists es m, In (sid, CSess es m) (s_clients s)) ->
  exists s' r w, step s (LSessRegister sid md) = Some (s', r, w) /\
   ((r = RpError /\ s' = s /\ exists a q, In a (map fst md) /\ q <> sid /\ describes s q a) \/
    (r = RpComplete /\ (forall a q, In a (map fst md) -> q <> sid -> ~ describes s q a) /\
     forall q a, describes s' q a <->
       (q = sid /\ In a (map fst md)) \/ (q <> sid /\ describes s q a))).
Proof. exact registration_accepted_iff. Qed.
Print Assumptions C34_register_accepted_iff_no_collision.

(** In the demo, session 1's registration of V was refused. *)
Example C34_case :
  In (LSessRegister 1 (comps [("V", 9)]), RpError) demo_hist /\
  describes demo_state 0 "V" /\ run 8 8 demo_state demo_hist.
Proof.
  split; [vm_compute; intuition|]. split; [|exact demo_run].
  exists [("a", "b"); ("b", "c")], (comps [("U", 1); ("V", 2)]). vm_compute. intuition.
Qed.

(* ------------------------------------------------------------------ C35 *)

(** A request that was issued has had no answer and is waiting, or has had exactly
    one and waits no more.  The answer is justified: it carries a response only
    of the process that owned the unit when the request was sent, and each error
    names something that happened. *)
Theorem C35_exactly_one_justified_answer :
  forall (sl tl : nat) (s : server) (h : hist) (q : nat) (u : addr) (ok : bool),
  run sl tl s h -> In (LRoute u ok, RpId q) h ->
  (answers_to s q = [] /\ waits s q) \/
  (exists r, answers_to s q = [r] /\ ~ waits s q /\ justified sl tl h q r).
Proof. exact one_answer. Qed.
Print Assumptions C35_exactly_one_justified_answer.

(** A waiting request can always be answered: by delivering its result, or by its
    timeout, whatever the processes do. *)
Theorem C35_a_waiting_request_can_be_answered :
  forall (sl tl : nat) (s : server) (h : hist) (q : nat), run sl tl s h -> waits s q ->
  exists ls s' h', run sl tl s' (h ++ h') /\ map fst h' = ls /\
    (ls = [LAnswer q] \/ ls = [LTimeoutAnswer q] \/ ls = [LTimeoutFires q; LTimeoutAnswer q]) /\
    exists r, answers_to s' q = [r].
Proof. exact can_answer. Qed.
Print Assumptions C35_a_waiting_request_can_be_answered.

(** Process 2 owns U, process 3 does not.  Request 4 is answered by 2; request 5
    gets 3's response, which is refused; request 6 is waiting when 2 goes;
    request 7 finds no owner; request 8's timeout wins over a late response. *)
Definition requests : list label :=
  [ LProcess;
    LRoute "U" true; LProcResponse 2 4 70; LAnswer 4;
    LRoute "U" true; LProcResponse 3 5 71; LAnswer 5;
    LRoute "U" true; LRoute "Z" true;
    LRoute "U" true; LTimeoutFires 8; LProcResponse 2 8 72; LTimeoutAnswer 8;
    LProcGone 2; LAnswer 6 ].

Example C35_case :
  exists s h, run 8 8 s h /\ In (LRoute "U" true, RpId 4) h /\
    s_answers s = [(4, RespFrom 2 70); (5, RespInvalid); (7, RespUnroutable); (8, RespTimeout); (6, RespGone)].
Proof.
  destruct (exec demo_state demo_hist requests) as [[s h]|] eqn:E; [|vm_compute in E; discriminate].
  exists s, h. split; [eapply exec_run; [exact demo_run|exact E]|].
  vm_compute in E. injection E as <- <-. split; [vm_compute; intuition|reflexivity].
Qed.

(* ------------------------------------------------------------------ C36 *)

(** The snapshot's value of a component is what the process that last reported it
    (and has not gone since) said; without such a report, the initial value its
    session declares; without either, nothing. *)
Theorem C36_snapshot_is_the_latest_report_or_the_declared_value :
  forall (sl tl : nat) (s : server) (h : hist) (a : addr) (v : value),
  run sl tl s h -> well_keyed h ->
  (settings_snapshot s a = Some v <->
   (exists p, reported h a p v) \/
   ((forall p w, ~ reported h a p w) /\ exists sid, declared h sid a v)).
Proof. exact snapshot_value. Qed.
Print Assumptions C36_snapshot_is_the_latest_report_or_the_declared_value.

Example C36_case :
  run 8 8 demo_state demo_hist /\ well_keyed demo_hist /\
  settings_snapshot demo_state "U" = Some 7 /\ settings_snapshot demo_state "V" = Some 2 /\
  option_map (fun p => settings_snapshot (fst p) "U") (exec demo_state demo_hist [LProcGone 2]) = Some (Some 1) /\
  option_map (fun p => settings_snapshot (fst p) "U") (exec demo_state demo_hist [LProcGone 2; LSessGone 0]) = Some None.
Proof. split; [exact demo_run|]. split; [exact demo_keyed|]. vm_compute. auto. Qed.

(* ------------------------------------------------------------------ C37 *)

(** Missing from the full claim: a component that left the snapshot still has
    events (next theorem), and the premise that no session registers a component
    that a process is already reporting (the theorem after it). *)
Theorem C37_events_explain_the_snapshot_partial :
  forall (sl tl : nat) (s : server) (h : hist),
  run sl tl s h -> well_keyed h -> registers_before_reports h ->
  forall a v, settings_snapshot s a = Some v ->
    (forall w, last_event_value a (l_events (s_slog s)) = Some w -> w = v) /\
    (l_seq (s_slog s) <= sl -> last_event_value a (l_events (s_slog s)) = Some v).
Proof. exact events_explain. Qed.
Print Assumptions C37_events_explain_the_snapshot_partial.

(** A session leaves: its component leaves the snapshot, the log keeps saying 1. *)
Theorem C37_removal_is_not_logged_refuted :
  exists s h, run 8 8 s h /\ well_keyed h /\ registers_before_reports h /\
    last_event_value "U" (l_events (s_slog s)) = Some 1 /\ settings_snapshot s "U" = None.
Proof.
  destruct (exec (new_server 8 8) [] [LSession; LSessRegister 0 (comps [("U", 1)]); LSessGone 0])
    as [[s h]|] eqn:E; [|vm_compute in E; discriminate].
  exists s, h. split; [eapply exec_run; [constructor|exact E]|].
  vm_compute in E. injection E as <- <-. split; [|split; [|split; reflexivity]].
  - intros sid md r I. cbn in I.
    repeat (destruct I as [I|I]; [first [discriminate I|injection I as <- <- <-]|]); [|destruct I].
    apply (keyed_comps [("U", 1)]). repeat constructor; cbn; tauto.
  - intros b sid md aft a p v Eq I [b1 [e [a1 [E1 [E2 _]]]]]. subst e b.
    assert (J : In (LProcSettings p a v, RpComplete)
      [(LSession, RpId 0); (LSessRegister 0 [("U", mkComp "U" 1)], RpComplete); (LSessGone 0, RpNone)]).
    { rewrite Eq. apply in_app_iff; left. apply in_app_iff; right; now left. }
    cbn in J. intuition discriminate.
Qed.
Print Assumptions C37_removal_is_not_logged_refuted.

(** A process reports 7 for U, then a session registers U with initial value 1:
    the snapshot keeps 7, the last event says 1. *)
Theorem C37_initial_event_hides_a_report_refuted :
  exists s h, run 8 8 s h /\ well_keyed h /\
    last_event_value "U" (l_events (s_slog s)) = Some 1 /\ settings_snapshot s "U" = Some 7.
Proof.
  destruct (exec (new_server 8 8) [] [LProcess; LProcRegister 0 ["U"]; LProcSettings 0 "U" 7; LSession;
                                      LSessRegister 1 (comps [("U", 1)])])
    as [[s h]|] eqn:E; [|vm_compute in E; discriminate].
  exists s, h. split; [eapply exec_run; [constructor|exact E]|].
  vm_compute in E. injection E as <- <-. split; [|split; reflexivity].
  intros sid md r I. cbn in I.
  repeat (destruct I as [I|I]; [first [discriminate I|injection I as <- <- <-]|]); [|destruct I].
  apply (keyed_comps [("U", 1)]). repeat constructor; cbn; tauto.
Qed.
Print Assumptions C37_initial_event_hides_a_report_refuted.

(** The premises of the partial theorem hold in the demo: registration came first. *)
Example C37_case :
  run 8 8 demo_state demo_hist /\ well_keyed demo_hist /\ registers_before_reports demo_hist /\
  last_event_value "U" (l_events (s_slog demo_state)) = Some 7 /\ settings_snapshot demo_state "U" = Some 7.
Proof.
  split; [exact demo_run|]. split; [exact demo_keyed|]. split; [|vm_compute; auto].
  intros b sid md aft a p v Eq I [b1 [e [a1 [E1 [E2 _]]]]]. subst e b.
  assert (Hh : demo_hist = removelast demo_hist ++ [(LProcSettings 2 "U" 7, RpComplete)])
    by (vm_compute; reflexivity).
  rewrite Hh in Eq. clear Hh.
  assert (J : forall q b w, ~ In (LProcSettings q b w, RpComplete) (removelast demo_hist)).
  { intros q b w J. vm_compute in J.
    repeat (destruct J as [J|J]; [discriminate J|]). exact J. }
  revert J Eq. generalize (removelast demo_hist). intros h0 J Eq.
  destruct aft as [|x aft _] using rev_ind.
  - apply app_inj_tail in Eq as [_ Eq]. discriminate.
  - rewrite app_comm_cons, app_assoc in Eq. apply app_inj_tail in Eq as [Eq _].
    apply (J p a v). rewrite Eq. apply in_app_iff; left. apply in_app_iff; right; now left.
Qed.
