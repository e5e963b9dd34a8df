(* Proofs about QueryModel.v. *)

From Coq Require Import String List Arith Bool Lia.
From Verif Require Import Dict DagModel DagSpec DagProofs EventLogModel ServerModel ServerSpec ServerFrames
  ServerProofs ServerTopology RoutingModel RoutingSpec RoutingProofs QueryModel QuerySpec.
Import ListNotations.

(* ---- the snapshot ---- *)

Lemma sess_in s sid es md :
  In (sid, (es, md)) (sn_sess (snapshot s)) <-> In (sid, CSess es md) (s_clients s).
Proof.
  cbn [snapshot sn_sess]. rewrite in_flat_map. split.
  - intros [[i c] [A B]]. cbn [fst snd] in B. destruct c; cbn in B; try contradiction.
    destruct B as [B|[]]. injection B as <- <- <-. exact A.
  - intros A. exists (sid, CSess es md). split; [exact A|now left].
Qed.

Lemma procs_in s p us : In (p, us) (sn_procs (snapshot s)) <-> In (p, CProc us) (s_clients s).
Proof.
  cbn [snapshot sn_procs]. rewrite in_flat_map. split.
  - intros [[i c] [A B]]. cbn [fst snd] in B. destruct c; cbn in B; try contradiction.
    destruct B as [B|[]]. injection B as <- <-. exact A.
  - intros A. exists (p, CProc us). split; [exact A|now left].
Qed.

Lemma procs_nodup s : CInv s -> NoDup (map fst (sn_procs (snapshot s))).
Proof.
  intros I. pose proof (c_nodup _ _ _ I) as ND. unfold keys in ND. cbn [snapshot sn_procs].
  induction (s_clients s) as [|[i c] l IH]; [constructor|]. cbn [map fst] in ND.
  inversion ND as [|? ? N ND']; subst. specialize (IH ND'). cbn [flat_map].
  rewrite map_app. destruct c; cbn [fst snd map app]; try exact IH. constructor; [|exact IH].
  intros J. apply N. apply in_map_iff in J as [[j us] [E J]]. cbn in E; subst j.
  apply in_flat_map in J as [[k c] [A B]]. cbn [fst snd] in B. destruct c; cbn in B; try contradiction.
  destruct B as [B|[]]. injection B as -> _. apply in_map_iff. exists (i, CProc units0). now split.
Qed.

Lemma sess_nodup s : CInv s -> NoDup (map fst (sn_sess (snapshot s))).
Proof.
  intros I. pose proof (c_nodup _ _ _ I) as ND. unfold keys in ND. cbn [snapshot sn_sess].
  induction (s_clients s) as [|[i c] l IH]; [constructor|]. cbn [map fst] in ND.
  inversion ND as [|? ? N ND']; subst. specialize (IH ND'). cbn [flat_map].
  rewrite map_app. destruct c; cbn [fst snd map app]; try exact IH. constructor; [|exact IH].
  intros J. apply N. apply in_map_iff in J as [[j us] [E J]]. cbn in E; subst j.
  apply in_flat_map in J as [[k c] [A B]]. cbn [fst snd] in B. destruct c; cbn in B; try contradiction.
  destruct B as [B|[]]. injection B as -> _. apply in_map_iff. eexists (i, _). split; [reflexivity|exact A].
Qed.

Lemma sess_reg sl tl s h sid md : run sl tl s h -> well_keyed h ->
  ((exists es, In (sid, (es, Some md)) (sn_sess (snapshot s))) <-> registered h sid md).
Proof.
  intros R W. pose proof (CInv_run _ _ _ _ R) as I. pose proof (SInv_run _ _ _ _ R W) as SI.
  rewrite <- (si_reg _ _ _ _ SI). split.
  - intros [es A]. apply sess_in in A. exists es. now apply (live_get s sid _ I).
  - intros [es A]. exists es. apply sess_in. now apply (live_get s sid _ I).
Qed.

Lemma snapshot_graph sl tl s h f t : run sl tl s h ->
  (edge_in (sn_graph (snapshot s)) f t <-> exists o, holds_edge h f t o).
Proof.
  intros R. pose proof (c_dag _ _ _ (CInv_run _ _ _ _ R)) as D.
  change (edge_in (sn_graph (snapshot s)) f t) with (has_edge (s_dag s) f t).
  rewrite (i_edge _ D). split.
  - intros K. unfold keys in K. apply in_map_iff in K as [[e os] [E K]]. cbn in E; subst e.
    apply In_get in K; [|apply D]. destruct os as [|o os]; [now destruct (i_own _ D _ _ K) as [X _]|].
    exists o. apply (owner_history _ _ _ _ R). unfold listed_owner, getd. rewrite K. now left.
  - intros [o K]. apply (owner_history _ _ _ _ R) in K. unfold listed_owner, getd in K.
    destruct (get (f, t) (d_owners (s_dag s))) as [os|] eqn:G; [|destruct K].
    apply get_In in G. unfold keys. apply in_map_iff. exists ((f, t), os). now split.
Qed.

Lemma snapshot_owners sl tl s h f t os : run sl tl s h ->
  In ((f, t), os) (sn_owners (snapshot s)) ->
  NoDup os /\ forall o, In o os <-> holds_edge h f t o.
Proof.
  intros R K. pose proof (c_dag _ _ _ (CInv_run _ _ _ _ R)) as D.
  change (In ((f, t), os) (d_owners (s_dag s))) in K. apply In_get in K; [|apply D].
  split; [exact (proj2 (i_own _ D _ _ K))|]. intros o. rewrite <- (owner_history _ _ _ _ R).
  unfold listed_owner, getd. now rewrite K.
Qed.

Lemma snapshot_owned sl tl s h f t : run sl tl s h -> edge_in (sn_graph (snapshot s)) f t ->
  exists os, In ((f, t), os) (sn_owners (snapshot s)).
Proof.
  intros R K. pose proof (c_dag _ _ _ (CInv_run _ _ _ _ R)) as D.
  change (has_edge (s_dag s) f t) in K. apply (i_edge _ D) in K. unfold keys in K.
  apply in_map_iff in K as [[e os] [E K]]. cbn in E; subst e. now exists os.
Qed.

Lemma snapshot_session sl tl s h sid es md f t : run sl tl s h ->
  In (sid, (es, md)) (sn_sess (snapshot s)) -> (In (f, t) es <-> holds_edge h f t (Some sid)).
Proof.
  intros R K. pose proof (CInv_run _ _ _ _ R) as I. apply sess_in in K.
  apply In_get in K; [|apply I]. rewrite (c_edges _ _ _ I _ _ _ K).
  apply (owner_history _ _ _ _ R).
Qed.

Lemma snapshot_owner_listed sl tl s h f t sid : run sl tl s h -> holds_edge h f t (Some sid) ->
  exists es md, In (sid, (es, md)) (sn_sess (snapshot s)) /\ In (f, t) es.
Proof.
  intros R K. pose proof (CInv_run _ _ _ _ R) as I. apply (owner_history _ _ _ _ R) in K.
  pose proof K as O. apply (c_live _ _ _ I) in O as [es [md G]]. exists es, md.
  split; [apply sess_in; now apply get_In|]. now apply (c_edges _ _ _ I _ _ _ G).
Qed.

Lemma snapshot_units sl tl s h p q us vs u : run sl tl s h ->
  In (p, us) (sn_procs (snapshot s)) -> In (q, vs) (sn_procs (snapshot s)) -> In u us -> In u vs ->
  p = q /\ us = vs.
Proof.
  intros R A B C D. pose proof (CInv_run _ _ _ _ R) as I. apply procs_in in A, B.
  apply In_get in A; [|apply I]. apply In_get in B; [|apply I].
  assert (p = q) by (eapply (c_units _ _ _ I); eauto). subst q. split; [reflexivity|congruence].
Qed.

(* ---- sets of topics and addresses ---- *)

Lemma fold_sadd {A} `{Dec A} (l : list A) : forall acc,
  (forall x, In x (fold_left (fun b t => sadd t b) l acc) <-> In x acc \/ In x l) /\
  (NoDup acc -> NoDup (fold_left (fun b t => sadd t b) l acc)).
Proof.
  induction l as [|a l IH]; intros acc; cbn [fold_left].
  - split; [intros x; cbn; tauto|auto].
  - destruct (IH (sadd a acc)) as [P Q]. split.
    + intros x. rewrite P, In_sadd. cbn [In]. intuition.
    + intros ND. apply Q. now apply NoDup_sadd.
Qed.

Lemma fold_union {A B} `{Dec A} (f : B -> list A) (l : list B) : forall acc,
  (forall x, In x (fold_left (fun acc b => fold_left (fun b0 t => sadd t b0) (f b) acc) l acc) <->
     In x acc \/ exists b, In b l /\ In x (f b)) /\
  (NoDup acc -> NoDup (fold_left (fun acc b => fold_left (fun b0 t => sadd t b0) (f b) acc) l acc)).
Proof.
  induction l as [|a l IH]; intros acc; cbn [fold_left].
  - split; [|auto]. intros x. split; [now left|intros [K|[b [[] _]]]; exact K].
  - destruct (fold_sadd (f a) acc) as [F1 F2].
    destruct (IH (fold_left (fun b0 t => sadd t b0) (f a) acc)) as [P Q]. split; [|auto].
    intros x. rewrite P, F1. split.
    + intros [[K|K]|[b [K1 K2]]]; [now left|right; exists a; split; [now left|exact K]|].
      right; exists b; split; [now right|exact K2].
    + intros [K|[b [[->|K1] K2]]]; [left; now left|left; now right|right; now exists b].
Qed.

Definition topics_found (dyn : comp -> option topic) (sn : snap) (a : addr) : list topic :=
  fold_left (fun acc x => fold_left (fun b t => sadd t b) (topic_of dyn a (snd (snd x))) acc)
    (sn_sess sn) [].

Lemma topics_found_spec sl tl s h dyn a t : run sl tl s h -> well_keyed h ->
  (In t (topics_found dyn (snapshot s) a) <-> exposes dyn h a t).
Proof.
  intros R W. unfold topics_found.
  destruct (fold_union (fun x : nat * (list edge * option metadata) => topic_of dyn a (snd (snd x)))
              (sn_sess (snapshot s)) []) as [P _].
  rewrite P. split.
  - intros [[]|[[sid [es md]] [A B]]]. cbn [snd] in B. unfold topic_of in B.
    destruct md as [m|]; [|destruct B]. destruct (get a m) as [c|] eqn:G; [|destruct B].
    destruct (dyn c) as [t'|] eqn:D; [|destruct B]. destruct B as [<-|[]].
    exists sid, m, c. split; [|auto]. apply (sess_reg _ _ _ _ _ _ R W). eauto.
  - intros [sid [m [c [A [B C]]]]]. right. apply (sess_reg _ _ _ _ _ _ R W) in A as [es A].
    exists (sid, (es, Some m)). split; [exact A|]. cbn [snd topic_of]. rewrite B, C. now left.
Qed.

Lemma exposes_one sl tl s h dyn a t t' : run sl tl s h -> well_keyed h ->
  exposes dyn h a t -> exposes dyn h a t' -> t = t'.
Proof.
  intros R W [p [m [c [A [B C]]]]] [q [m' [c' [A' [B' C']]]]].
  pose proof (CInv_run _ _ _ _ R) as I.
  assert (P : describes s p a).
  { apply (sess_reg _ _ _ _ _ _ R W) in A as [es A]. apply sess_in in A. exists es, m. split; [exact A|].
    apply get_In in B. apply in_map_iff. exists (a, c). now split. }
  assert (Q : describes s q a).
  { apply (sess_reg _ _ _ _ _ _ R W) in A' as [es A']. apply sess_in in A'. exists es, m'. split; [exact A'|].
    apply get_In in B'. apply in_map_iff. exists (a, c'). now split. }
  assert (p = q) by (eapply describer_unique; eauto). subst q.
  assert (m = m') by (eapply registered_unique; eauto). subst m'. congruence.
Qed.

Lemma topic_cases sl tl s h dyn a : run sl tl s h -> well_keyed h ->
  match settings_input_topic dyn (snapshot s) a with
  | Found t => exposes dyn h a t
  | NotExposed => forall t, ~ exposes dyn h a t
  | Conflicting => False
  end.
Proof.
  intros R W. pose proof (fun t => topics_found_spec _ _ _ _ dyn a t R W) as Sp.
  assert (ND : NoDup (topics_found dyn (snapshot s) a)).
  { unfold topics_found.
    apply (proj2 (fold_union (fun x : nat * (list edge * option metadata) => topic_of dyn a (snd (snd x)))
              (sn_sess (snapshot s)) [])). constructor. }
  unfold settings_input_topic. fold (topics_found dyn (snapshot s) a).
  destruct (topics_found dyn (snapshot s) a) as [|t [|t' l]] eqn:E.
  - intros t K. apply Sp in K. destruct K.
  - apply Sp. now left.
  - assert (t = t').
    { apply (exposes_one _ _ _ _ dyn a t t' R W); apply Sp; [now left|right; now left]. }
    subst t'. inversion ND as [|? ? N _]. apply N. now left.
Qed.

(* ---- refused registrations ---- *)

Definition clashing (own : nat) (md : metadata) (x : nat * (list edge * option metadata)) : list addr :=
  if eqd (fst x) own then []
  else match snd (snd x) with
       | None => []
       | Some m => filter (fun a => mem a (map fst m)) (map fst md)
       end.

Lemma fold_ext_l {A B} (f g : A -> B -> A) l : (forall a b, f a b = g a b) ->
  forall a, fold_left f l a = fold_left g l a.
Proof. intros E; induction l as [|b l IH]; intros a; cbn; [reflexivity|]. now rewrite E. Qed.

Lemma named_spec s own md a :
  In a (named_collisions own md (snapshot s)) <->
  In a (map fst md) /\ exists q, q <> own /\ describes s q a.
Proof.
  assert (G : In a (fold_left (fun acc x => fold_left (fun b0 t => sadd t b0) (clashing own md x) acc)
                      (sn_sess (snapshot s)) []) <->
              In a (map fst md) /\ exists q, q <> own /\ describes s q a).
  { rewrite (proj1 (fold_union (clashing own md) (sn_sess (snapshot s)) [])). split.
    - intros [[]|[[q [es m]] [A B]]]. unfold clashing in B. cbn [fst snd] in B.
      destruct (eqd q own) eqn:E; [destruct B|]. apply (proj1 (eqd_false _ _)) in E.
      destruct m as [m|]; [|destruct B]. apply filter_In in B as [B C]. apply mem_In in C.
      split; [exact B|]. exists q. split; [exact E|]. exists es, m. split; [now apply sess_in|exact C].
    - intros [B [q [E [es [m [A C]]]]]]. right. exists (q, (es, Some m)).
      split; [now apply sess_in|]. unfold clashing. cbn [fst snd].
      rewrite (proj2 (eqd_false q own) E). apply filter_In. split; [exact B|now apply mem_In]. }
  rewrite <- G. unfold named_collisions. destruct (map fst md) as [|k ks] eqn:M.
  - split; [intros []|]. intros K. apply G in K as [[] _].
  - rewrite <- M.
    rewrite (fold_ext_l _ (fun acc x => fold_left (fun b0 t => sadd t b0) (clashing own md x) acc));
      [reflexivity|].
    intros acc x. unfold clashing. destruct (eqd (fst x) own); [reflexivity|].
    destruct (snd (snd x)); reflexivity.
Qed.

Lemma named_now sl tl s h own md s' w : run sl tl s h ->
  step s (LSessRegister own md) = Some (s', RpError, w) ->
  s' = s /\ exists a, In a (named_collisions own md (snapshot s')).
Proof.
  intros R E. pose proof (CInv_run _ _ _ _ R) as I. cbn [step] in E.
  destruct (session_info own s) as [[es m]|] eqn:Si; [|discriminate].
  unfold register_session in E. rewrite Si in E.
  destruct (metadata_collisions own md s) as [|a l] eqn:C; [discriminate|].
  injection E as <- _. split; [reflexivity|].
  assert (K : metadata_collisions own md s <> []) by congruence.
  apply (described_elsewhere s own md I) in K as [b [q [A [B D]]]].
  exists b. apply named_spec. split; [exact A|]. exists q. now split.
Qed.

(* ---- answers are never taken back ---- *)

Lemma ans_fold {A} (f : server -> A -> server) :
  (forall s a, s_answers (f s a) = s_answers s) -> forall l s, s_answers (fold_left f l s) = s_answers s.
Proof. intros H l; induction l as [|a l IH]; intros s; cbn; [reflexivity|]. now rewrite IH. Qed.

Lemma ans_set_result req r s : s_answers (set_result req r s) = s_answers s.
Proof. unfold set_result. destruct (get req (s_fut s)) as [[]|]; reflexivity. Qed.

Lemma ans_process_gone pid s : s_answers (process_gone pid s) = s_answers s.
Proof.
  change (process_gone pid s) with
      (let s2 := remove_settings_for_process pid (fold_left gone_step (requests_of pid s) s) in
       let s3 := append_topology_event (mkTev PROCESS_CHANGED [] None (Some pid)) s2 in
       set_clients (del pid (s_clients s3)) s3).
  set (s1 := fold_left gone_step (requests_of pid s) s).
  assert (E1 : s_answers s1 = s_answers s).
  { apply ans_fold. intros s0 q. unfold gone_step. destruct (get q (s_pend s0)); [|reflexivity].
    rewrite ans_set_result. reflexivity. }
  assert (E2 : s_answers (remove_settings_for_process pid s1) = s_answers s1).
  { unfold remove_settings_for_process. apply ans_fold. intros s0 a.
    destruct (get a (s_set s0)) as [st|]; [|reflexivity].
    destruct (st_sess st); [|reflexivity]. destruct (initial_settings _ _ _); reflexivity. }
  cbn. now rewrite E2.
Qed.

Lemma answers_grow s l s' r w : CInv s -> step s l = Some (s', r, w) ->
  exists x, s_answers s' = s_answers s ++ x.
Proof.
  intros I E. pose proof (step_effect s l s' r w I E) as H. clear E.
  assert (Same : s_answers s' = s_answers s -> exists x, s_answers s' = s_answers s ++ x).
  { intros ->. exists []. now rewrite app_nil_r. }
  destruct H as
    [l c s' Hc Hl E | l r _ | id c s' G Hc E | f t s' d' r tl A N E | f t s' d' ch tl A E
    | sid f t s' d' r tl es md Si A N E | sid f t s' d' ch tl es md Si A E
    | sid md es md0 s' Si C E | sid es md d' ts x tl s' Si C G N E | sid es md d' ts x tl s' Si C G N E
    | pid us us0 s' tl Pi C E | pid added removed us0 s' tl Pi C E | pid a v us s' msid Pi Ia M E
    | pid req body us Pi | pid us Pi | u ok | req G | req G | req r G ]; try subst s';
    try (apply Same; reflexivity).
  - apply Same. pose proof (rp_register sid md s es md0 Si) as K. unfold request_part in K.
    apply (f_equal snd) in K. exact K.
  - apply Same. unfold route_response. destruct (get req (s_pend s)); [|reflexivity].
    destruct (eqd n pid); rewrite ans_set_result; reflexivity.
  - apply Same, ans_process_gone.
  - unfold route_request. sproj. destruct (process_owner u (s_clients s)).
    + destruct ok; [exists []; sproj; now rewrite app_nil_r|eexists; reflexivity].
    + eexists; reflexivity.
  - eexists; reflexivity.
  - eexists; reflexivity.
Qed.

Lemma answer_stays sl tl s h l s' r w q x : run sl tl s h -> step s l = Some (s', r, w) ->
  answers_to s q = [x] -> answers_to s' q = [x].
Proof.
  intros R E A. pose proof (CInv_run _ _ _ _ R) as I.
  destruct (answers_grow _ _ _ _ _ I E) as [y G].
  assert (R' : run sl tl s' (h ++ [(l, r)])) by (eapply run_step; eauto).
  assert (B : answers_to s' q = [x] ++ map snd (filter (fun p => eqd (fst p) q) y)).
  { unfold answers_to in *. rewrite G, filter_app, map_app, A. reflexivity. }
  destruct (answers_count _ _ _ _ q R') as [[C _]|[z [C _]]]; rewrite C in B; [discriminate|].
  cbn in B. injection B as <- B. exact C.
Qed.

(* ---- units ---- *)

Definition keeps_units (l : label) : Prop :=
  match l with LProcRegister _ _ | LProcOwn _ _ _ | LProcGone _ => False | _ => True end.

Lemma units_kept s l s' r w p u : CInv s -> step s l = Some (s', r, w) -> keeps_units l ->
  (owns_unit s p u <-> owns_unit s' p u).
Proof.
  intros I E Kl. assert (I' : CInv s') by (eapply CInv_effect; [exact I|eapply step_effect; eauto]).
  pose proof (step_effect s l s' r w I E) as H. clear E.
  assert (Gen : forall cs, s_clients s' = cs ->
     (forall us, u = u -> In u us -> (get p (s_clients s) = Some (CProc us) <-> get p cs = Some (CProc us))) ->
     (owns_unit s p u <-> owns_unit s' p u)).
  { intros cs <- G. unfold owns_unit. split; intros [us [A B]]; exists us; split; try exact B.
    - apply (live_get s' p _ I'), G; [reflexivity|exact B|]. now apply (live_get s p _ I).
    - apply (live_get s p _ I), G; [reflexivity|exact B|]. now apply (live_get s' p _ I'). }
  assert (Put : forall sid c us, (forall vs, get sid (s_clients s) <> Some (CProc vs)) ->
     (forall vs, c <> CProc vs \/ ~ In u vs) -> In u us ->
     (get p (s_clients s) = Some (CProc us) <-> get p (put sid c (s_clients s)) = Some (CProc us))).
  { intros sid c us N M Iu. rewrite get_put. destruct (dec p sid) as [->|]; [|reflexivity]. split.
    - intros K. now apply N in K.
    - intros K. injection K as ->. destruct (M us) as [X|X]; [now destruct X|contradiction]. }
  assert (Del : forall sid us, (forall vs, get sid (s_clients s) <> Some (CProc vs)) ->
     (get p (s_clients s) = Some (CProc us) <-> get p (del sid (s_clients s)) = Some (CProc us))).
  { intros sid us N. rewrite get_del. destruct (dec p sid) as [->|]; [|reflexivity]. split.
    - intros K. now apply N in K.
    - discriminate. }
  destruct H as
    [l c s' Hc Hl E | l r _ | id c s' G Hc E | f t s' d' r tl A N E | f t s' d' ch tl A E
    | sid f t s' d' r tl es md Si A N E | sid f t s' d' ch tl es md Si A E
    | sid md es md0 s' Si C E | sid es md d' ts x tl s' Si C G N E | sid es md d' ts x tl s' Si C G N E
    | pid us us0 s' tl Pi C E | pid added removed us0 s' tl Pi C E | pid a v us s' msid Pi Ia M E
    | pid req body us Pi | pid us Pi | u0 ok | req G | req G | req r G ]; try subst s'; cbn in Kl;
    try contradiction; try (eapply Gen; [reflexivity|]; intros; reflexivity).
  - eapply Gen; [reflexivity|]. intros us _ Iu. sproj. apply Put; [| |exact Iu].
    + intros vs K. apply (live_get s _ _ I) in K. 
      assert (In (s_next s) (keys (s_clients s))) by (unfold keys; apply in_map_iff; exists (s_next s, CProc vs); now split).
      apply (c_ids _ _ _ I) in H. lia.
    + intros vs. destruct Hl as [[-> ->]|[[-> ->]|[[t [-> ->]]|[[t [-> ->]]|[p0 [t [-> [-> _]]]]]]]];
        try (left; discriminate). destruct vs; [right; intros []|left; discriminate].
  - eapply Gen; [reflexivity|]. intros us _ Iu. sproj. apply Del.
    intros vs K. rewrite G in K. injection K as ->. destruct Hc.
  - apply session_info_get in Si. eapply Gen; [reflexivity|]. intros us _ Iu. sproj.
    apply Put; [congruence|left; discriminate|exact Iu].
  - apply session_info_get in Si. eapply Gen; [reflexivity|]. intros us _ Iu. sproj.
    apply Put; [congruence|left; discriminate|exact Iu].
  - pose proof (dag_register sid md s es md0 Si) as K. unfold core in K. apply (f_equal snd) in K.
    cbn [snd] in K. apply session_info_get in Si. eapply Gen; [exact K|]. intros us _ Iu.
    apply Put; [congruence|left; discriminate|exact Iu].
  - apply session_info_get in Si. eapply Gen; [reflexivity|]. intros us _ Iu. sproj.
    apply Put; [congruence|left; discriminate|exact Iu].
  - apply session_info_get in Si. eapply Gen; [reflexivity|]. intros us _ Iu. sproj.
    apply Del. congruence.
  - eapply Gen; [|intros; reflexivity]. exact (f_equal snd (core_route_response pid req body s)).
  - eapply Gen; [|intros; reflexivity]. exact (f_equal snd (core_route_request u0 ok s)).
Qed.

(* ---- a request is routed once ---- *)

Lemma run_prefix sl tl s h2 : run sl tl s h2 -> forall h1 h', h2 = h1 ++ h' ->
  exists s1, run sl tl s1 h1 /\ s_next s1 <= s_next s.
Proof.
  induction 1 as [|s h l s' r w R IH E]; intros h1 h' Eh.
  - symmetry in Eh. apply app_eq_nil in Eh as [-> ->]. exists (new_server sl tl). split; [constructor|lia].
  - destruct h' as [|y ys] using rev_ind.
    + rewrite app_nil_r in Eh. subst h1. exists s'. split; [eapply run_step; eauto|lia].
    + rewrite app_assoc in Eh. apply app_inj_tail in Eh as [-> _].
      destruct (IH h1 ys eq_refl) as [s1 [A B]]. exists s1. split; [exact A|].
      pose proof (step_clients _ _ _ _ _ (CInv_run _ _ _ _ R) E) as [C _]. lia.
Qed.

Lemma route_id s u ok s' q w : step s (LRoute u ok) = Some (s', RpId q, w) ->
  q = s_next s /\ s_next s' = S (s_next s).
Proof.
  cbn [step]. intros [= <- <- _]. split; [reflexivity|].
  exact (f_equal (fun p => fst (fst p)) (core_route_request u ok s)).
Qed.

Lemma run_last sl tl s h l r : run sl tl s (h ++ [(l, r)]) ->
  exists s1 w, run sl tl s1 h /\ step s1 l = Some (s, r, w).
Proof.
  intros R. remember (h ++ [(l, r)]) as hh eqn:Eh.
  destruct R as [|s1 h1 l1 s2 r1 w R1 E]; [destruct h; discriminate|].
  apply app_inj_tail in Eh as [-> Eh]. injection Eh as -> ->. eauto.
Qed.

Lemma routed_once sl tl s h b a u ok q b' a' u' ok' : run sl tl s h ->
  h = b ++ (LRoute u ok, RpId q) :: a -> h = b' ++ (LRoute u' ok', RpId q) :: a' ->
  b = b' /\ u = u' /\ ok = ok'.
Proof.
  intros R E E'.
  assert (Id : forall c x v k, h = c ++ (LRoute v k, RpId q) :: x ->
     forall s1, run sl tl s1 c -> s_next s1 = q).
  { intros c x v k Eh s1 R1.
    assert (Eh' : h = (c ++ [(LRoute v k, RpId q)]) ++ x) by now rewrite <- app_assoc.
    destruct (run_prefix _ _ _ _ R _ _ Eh') as [s2 [R2 _]].
    apply run_last in R2 as [s3 [w [R3 E3]]]. rewrite (run_det _ _ _ _ R3 _ R1).
    now apply route_id in E3 as [-> _]. }
  assert (Gen : forall c x v k c' x' v' k', h = c ++ (LRoute v k, RpId q) :: x ->
     h = c' ++ (LRoute v' k', RpId q) :: x' -> forall e l, c' = c ++ e :: l -> False).
  { intros c x v k c' x' v' k' Eh Eh' e l Ec.
    assert (e = (LRoute v k, RpId q)).
    { rewrite Eh, Ec, <- app_assoc in Eh'. apply app_inv_head in Eh'. cbn in Eh'. congruence. }
    subst e.
    destruct (run_prefix _ _ _ _ R _ _ Eh') as [s2 [R2 _]].
    pose proof (Id _ _ _ _ Eh' _ R2) as N2.
    assert (Ec' : c' = (c ++ [(LRoute v k, RpId q)]) ++ l) by now rewrite <- app_assoc.
    destruct (run_prefix _ _ _ _ R2 _ _ Ec') as [s3 [R3 L3]].
    apply run_last in R3 as [s4 [w [R4 E4]]]. apply route_id in E4 as [N4 N3].
    lia. }
  assert (b = b').
  { pose proof E' as Eb. rewrite E in Eb. apply app_eq_app in Eb as [l [[A B]|[A B]]].
    - destruct l as [|e l]; [now rewrite app_nil_r in A|]. exfalso. exact (Gen _ _ _ _ _ _ _ _ E' E _ _ A).
    - destruct l as [|e l]; [now rewrite app_nil_r in A|]. exfalso. exact (Gen _ _ _ _ _ _ _ _ E E' _ _ A). }
  subst b'. rewrite E in E'. apply app_inv_head in E'. injection E' as -> -> _. auto.
Qed.

(* ---- profiling_snapshot_all ---- *)

Definition outcome (good : nat -> bool) (r : response) : option (nat * nat) :=
  match r with RespFrom q b => if good b then Some (q, b) else None | _ => None end.

Definition settled (sl tl : nat) (good : nat -> bool) (h0 h : hist) (s : server) (c : caller)
  (x : nat * list addr) : Prop :=
  (get (fst x) (c_out c) = None /\ (snd x = [] \/ In (fst x) (c_raised c))) \/
  (~ In (fst x) (c_raised c) /\ exists u q s1 r, In u (snd x) /\ asked_since sl tl h0 h q u s1 /\
     answers_to s q = [r] /\ get (fst x) (c_out c) = outcome good r).

Record CallInv (sl tl : nat) (good : nat -> bool) (s0 : server) (h0 : hist) (s : server) (h : hist)
  (c : caller) (done : list (nat * list addr)) : Prop := {
  ci_run : run sl tl s h;
  ci_since : exists mid, h = h0 ++ mid;
  ci_split : match c_wait c with
             | None => sn_procs (snapshot s0) = done ++ c_todo c
             | Some (p, q) => exists u us s1, sn_procs (snapshot s0) = done ++ (p, u :: us) :: c_todo c /\
                                asked_since sl tl h0 h q u s1
             end;
  ci_done : forall x, In x done -> settled sl tl good h0 h s c x;
  ci_keys : forall p, ~ In p (map fst done) -> get p (c_out c) = None /\ ~ In p (c_raised c)
}.

Lemma asked_more sl tl h0 h q u s1 e : asked_since sl tl h0 h q u s1 ->
  asked_since sl tl h0 (h ++ [e]) q u s1.
Proof.
  intros [ok [mid [after [-> R]]]]. exists ok, mid, (after ++ [e]). split; [|exact R].
  now rewrite <- !app_assoc.
Qed.

Lemma settled_more sl tl good h0 h s c x l r s' w : run sl tl s h -> step s l = Some (s', r, w) ->
  settled sl tl good h0 h s c x -> settled sl tl good h0 (h ++ [(l, r)]) s' c x.
Proof.
  intros R E [K|[N [u [q [s1 [r0 [A [B [C D]]]]]]]]]; [now left|]. right. split; [exact N|].
  exists u, q, s1, r0. split; [exact A|]. split; [now apply asked_more|]. split; [|exact D].
  eapply answer_stays; eauto.
Qed.

Lemma calls_inv sl tl good s0 h0 s h c : run sl tl s0 h0 -> calls good s0 h0 s h c ->
  exists done, CallInv sl tl good s0 h0 s h c done.
Proof.
  intros R0 H.
  pose proof (procs_nodup s0 (CInv_run _ _ _ _ R0)) as ND.
  induction H as [|s h c l s' r w H IH E|s h p rest out ra H IH|s h p u us rest out ra ok s' q w H IH E
    |s h c p q r H IH W A|s h p u us rest out ra H IH|s h todo p q out ra H IH].
  - exists []. constructor; cbn [c_wait c_todo c_out c_raised start].
    + exact R0.
    + exists []. now rewrite app_nil_r.
    + reflexivity.
    + intros x [].
    + intros p _. split; [reflexivity|intros []].
  - destruct IH as [done [A [mid B] C D F]]. exists done. constructor.
    + eapply run_step; eauto.
    + exists (mid ++ [(l, r)]). subst h. now rewrite app_assoc.
    + destruct (c_wait c) as [[p q]|]; [|exact C]. destruct C as [u [us [s1 [C1 C2]]]].
      exists u, us, s1. split; [exact C1|now apply asked_more].
    + intros x K. eapply settled_more; eauto.
    + exact F.
  - destruct IH as [done [A B C D F]]. cbn [c_wait c_todo c_out c_raised] in C, F. exists (done ++ [(p, [])]). constructor; cbn [c_wait c_todo c_out c_raised start].
    + exact A.
    + exact B.
    + now rewrite <- app_assoc.
    + intros x K. apply in_app_iff in K as [K|[<-|[]]]; [exact (D x K)|]. left. cbn. split; [|now left].
      apply F. rewrite C, map_app in ND. cbn [map fst] in ND.
      apply NoDup_remove_2 in ND. intros K. apply ND, in_app_iff. now left.
    + intros q N. apply F. intros K. apply N. rewrite map_app. apply in_app_iff. now left.
  - destruct IH as [done [A [mid B] C D F]]. cbn [c_wait c_todo c_out c_raised] in C, F. exists done. constructor; cbn [c_wait c_todo c_out c_raised start].
    + eapply run_step; eauto.
    + exists (mid ++ [(LRoute u ok, RpId q)]). subst h. now rewrite app_assoc.
    + exists u, us, s. split; [exact C|]. exists ok, mid, []. subst h. rewrite <- app_assoc. now split.
    + intros x K. eapply (settled_more _ _ _ _ _ _ _ _ _ _ _ _ A E) in D; [|exact K]. exact D.
    + exact F.
  - destruct IH as [done [R [mid B] C D F]]. rewrite W in C. destruct C as [u [us [s1 [C1 C2]]]].
    assert (Np : ~ In p (map fst done)).
    { rewrite C1, map_app in ND. cbn [map fst] in ND. apply NoDup_remove_2 in ND. intros K. apply ND, in_app_iff. now left. }
    assert (T : c_wait (take good p r c) = None /\ c_todo (take good p r c) = c_todo c /\
                c_raised (take good p r c) = c_raised c /\
                get p (c_out (take good p r c)) = outcome good r /\
                forall k, k <> p -> get k (c_out (take good p r c)) = get k (c_out c)).
    { pose proof (proj1 (F p Np)) as Fp.
      destruct r as [q0 b| | | | |]; cbn [take outcome]; try (destruct (good b)); cbn [c_wait c_todo c_raised c_out];
        repeat split; try exact Fp; try reflexivity;
        try (rewrite get_put; destruct (dec p p); [reflexivity|contradiction]).
      intros k Nk. rewrite get_put. destruct (dec k p); [contradiction|reflexivity]. }
    destruct T as [T1 [T2 [T3 [T4 T5]]]].
    exists (done ++ [(p, u :: us)]). constructor.
    + exact R.
    + now exists mid.
    + rewrite T1, T2. rewrite <- app_assoc. exact C1.
    + intros x K. apply in_app_iff in K as [K|[<-|[]]].
      * assert (Nx : fst x <> p). { intros <-. apply Np. now apply in_map. }
        unfold settled. rewrite T3, (T5 _ Nx). exact (D x K).
      * right. cbn [fst snd]. rewrite T3. split; [exact (proj2 (F p Np))|].
        exists u, q, s1, r. split; [now left|]. split; [exact C2|]. now split.
    + intros k N. rewrite map_app in N. cbn in N. rewrite T3. rewrite T5.
      * apply F. intros K. apply N, in_app_iff. now left.
      * intros ->. apply N, in_app_iff. right. now left.
  - destruct IH as [done [A B C D F]]. cbn [c_wait c_todo c_out c_raised] in C, F.
    assert (Np : ~ In p (map fst done)).
    { rewrite C, map_app in ND. cbn [map fst] in ND. apply NoDup_remove_2 in ND. intros K. apply ND, in_app_iff. now left. }
    exists (done ++ [(p, u :: us)]). constructor; cbn [c_wait c_todo c_out c_raised start].
    + exact A.
    + exact B.
    + now rewrite <- app_assoc.
    + intros x K. apply in_app_iff in K as [K|[<-|[]]].
      * assert (Nx : fst x <> p). { intros <-. apply Np. now apply in_map. }
        destruct (D x K) as [[K1 [K2|K2]]|[K1 K2]]; cbn in *.
        -- left. auto.
        -- left. split; [exact K1|]. right. now right.
        -- right. split; [intros [X|X]; [now symmetry in X|now apply K1]|exact K2].
      * left. cbn. split; [apply F, Np|]. right. now left.
    + intros k N. rewrite map_app in N. cbn in N. destruct (F k) as [F1 F2].
      { intros K. apply N, in_app_iff. now left. }
      split; [exact F1|]. intros [X|X]; [|now apply F2]. subst k. apply N, in_app_iff. right. now left.
  - destruct IH as [done [A B C D F]]. cbn [c_wait c_todo c_out c_raised] in C, F. destruct C as [u [us [s1 [C _]]]].
    assert (Np : ~ In p (map fst done)).
    { rewrite C, map_app in ND. cbn [map fst] in ND. apply NoDup_remove_2 in ND. intros K. apply ND, in_app_iff. now left. }
    exists (done ++ [(p, u :: us)]). constructor; cbn [c_wait c_todo c_out c_raised start].
    + exact A.
    + exact B.
    + now rewrite <- app_assoc.
    + intros x K. apply in_app_iff in K as [K|[<-|[]]].
      * assert (Nx : fst x <> p). { intros <-. apply Np. now apply in_map. }
        destruct (D x K) as [[K1 [K2|K2]]|[K1 K2]]; cbn in *.
        -- left. auto.
        -- left. split; [exact K1|]. right. now right.
        -- right. split; [intros [X|X]; [now symmetry in X|now apply K1]|exact K2].
      * left. cbn. split; [apply F, Np|]. right. now left.
    + intros k N. rewrite map_app in N. cbn in N. destruct (F k) as [F1 F2].
      { intros K. apply N, in_app_iff. now left. }
      split; [exact F1|]. intros [X|X]; [|now apply F2]. subst k. apply N, in_app_iff. right. now left.
Qed.

Lemma from_owner sl tl s h h0 q u s1 p b : run sl tl s h -> asked_since sl tl h0 h q u s1 ->
  answers_to s q = [RespFrom p b] -> owns_unit s1 p u /\ In (LProcResponse p q b, RpNone) h.
Proof.
  intros R [ok [mid [after [E R1]]]] A.
  assert (I : In (LRoute u ok, RpId q) h).
  { rewrite E. apply in_app_iff; right. apply in_app_iff; right. now left. }
  destruct (one_answer _ _ _ _ _ _ _ R I) as [[B _]|[r [B [_ J]]]]; rewrite A in B; [discriminate|].
  injection B as <-. cbn [justified] in J. destruct J as [u' [s2 [[b1 [a1 [E1 R2]]] [O L]]]].
  rewrite app_assoc in E.
  destruct (routed_once _ _ _ _ _ _ _ _ _ _ _ _ _ R E E1) as [<- [<- _]].
  rewrite (run_det _ _ _ _ R1 _ R2) in O. now split.
Qed.

Lemma profile_entry sl tl good s0 h0 s h c p q b : run sl tl s0 h0 -> calls good s0 h0 s h c ->
  get p (c_out c) = Some (q, b) ->
  good b = true /\ exists us u req s1, In (p, us) (sn_procs (snapshot s0)) /\ In u us /\
    asked_since sl tl h0 h req u s1 /\ owns_unit s1 q u /\ In (LProcResponse q req b, RpNone) h.
Proof.
  intros R0 H G. destruct (calls_inv _ _ _ _ _ _ _ _ R0 H) as [done [A B C D F]].
  destruct (in_dec Nat.eq_dec p (map fst done)) as [K|K].
  2: { destruct (F p K) as [X _]. congruence. }
  apply in_map_iff in K as [[p' us] [Ep K]]. cbn in Ep; subst p'.
  destruct (D _ K) as [[X _]|[_ [u [req [s1 [r [E1 [E2 [E3 E4]]]]]]]]]; cbn [fst snd] in *; [congruence|].
  rewrite G in E4. destruct r as [q0 b0| | | | |]; cbn [outcome] in E4; try discriminate.
  destruct (good b0) eqn:Gb; [|discriminate]. injection E4 as -> ->. split; [exact Gb|].
  destruct (from_owner _ _ _ _ _ _ _ _ _ _ A E2 E3) as [O L].
  exists us, u, req, s1. split; [|auto].
  destruct (c_wait c) as [[p1 q1]|]; [destruct C as [v [vs [s2 [C _]]]]|]; rewrite C; apply in_app_iff; now left.
Qed.

Lemma unchanged_owner sl tl s0 h0 : run sl tl s0 h0 -> forall mid s1, run sl tl s1 (h0 ++ mid) ->
  (forall l r, In (l, r) mid -> keeps_units l) -> forall p u, owns_unit s0 p u <-> owns_unit s1 p u.
Proof.
  intros R0 mid. induction mid as [|[l r] mid IH] using rev_ind; intros s1 R1 K p u.
  - rewrite app_nil_r in R1. rewrite (run_det _ _ _ _ R0 _ R1). reflexivity.
  - rewrite app_assoc in R1. apply run_last in R1 as [s2 [w [R2 E]]].
    rewrite (IH s2 R2); [|intros l0 r0 J; eapply K; apply in_app_iff; left; exact J].
    eapply units_kept; [eapply CInv_run; eauto|exact E|]. eapply K. apply in_app_iff; right; now left.
Qed.

Lemma profile_own sl tl good s0 h0 s h c p q b : run sl tl s0 h0 -> calls good s0 h0 s h c ->
  processes_unchanged h0 h -> get p (c_out c) = Some (q, b) -> q = p.
Proof.
  intros R0 H [mid [E K]] G.
  destruct (profile_entry _ _ _ _ _ _ _ _ _ _ _ R0 H G) as [_ [us [u [req [s1 [A [B [[ok [m [after [E1 R1]]]] [O _]]]]]]]]].
  assert (Em : mid = m ++ (LRoute u ok, RpId req) :: after).
  { rewrite E in E1. now apply app_inv_head in E1. }
  assert (O0 : owns_unit s0 q u).
  { apply (unchanged_owner _ _ _ _ R0 m s1 R1); [|exact O]. intros l r J. apply (K l r).
    rewrite Em. apply in_app_iff. now left. }
  apply (unit_owner_unique _ _ _ _ R0 q p u); [exact O0|]. exists us. split; [now apply procs_in|exact B].
Qed.

Lemma profile_all sl tl good s0 h0 s h out ra p us : run sl tl s0 h0 ->
  calls good s0 h0 s h (mkCaller [] None out ra) -> In (p, us) (sn_procs (snapshot s0)) ->
  us <> [] -> ~ In p ra ->
  exists u req s1 r, In u us /\ asked_since sl tl h0 h req u s1 /\ answers_to s req = [r] /\
    forall q b, get p out = Some (q, b) <-> r = RespFrom q b /\ good b = true.
Proof.
  intros R0 H I N Nr. destruct (calls_inv _ _ _ _ _ _ _ _ R0 H) as [done [A B C D F]].
  cbn [c_wait c_todo] in C. rewrite app_nil_r in C. rewrite C in I.
  destruct (D _ I) as [[_ [X|X]]|[_ [u [req [s1 [r [E1 [E2 [E3 E4]]]]]]]]]; cbn [fst snd c_out c_raised] in *;
    [contradiction|contradiction|].
  exists u, req, s1, r. split; [exact E1|]. split; [exact E2|]. split; [exact E3|].
  intros q b. rewrite E4. destruct r as [q0 b0| | | | |]; cbn [outcome];
    try (split; [discriminate|intros [X _]; discriminate]).
  destruct (good b0) eqn:Gb; split.
  - intros [= -> ->]. auto.
  - intros [[= -> ->] _]. reflexivity.
  - discriminate.
  - intros [[= -> ->] X]. congruence.
Qed.
