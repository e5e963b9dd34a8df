(* C82: how publishers and subscribers get connected. *)

From Coq Require Import String List Arith Bool Lia Relations.
From Verif Require Import Dict DagModel DagSpec DagProofs JoinModel JoinSpec JoinProofs JoinCtlProofs JoinViewProofs JoinSyncProofs JoinLiveProofs JoinEndProofs.
Import ListNotations.

Lemma reach ls w : steps start ls = Some w -> Good w.
Proof. apply Good_steps, Good_start. Qed.

Lemma reach_sync ls w : steps start ls = Some w -> never times_out ls -> Sync w.
Proof. intros H N. exact (Sync_steps ls start w Good_start Sync_start (never_forallb _ N) H). Qed.

(** Once Publisher.create and Subscriber.create have returned, a message published is received
    exactly if the publisher's topic leads to the subscriber's: as long as the server has not given
    up waiting for a subscriber, and is not telling subscribers of a connect() or disconnect(). *)
Theorem C82_first_message ls w p t s u m w' :
  steps start ls = Some w -> never times_out ls -> ~ changing w ->
  publisher w p t -> subscriber w s u -> step w (Send p m) = Some w' ->
  (connected w t u -> heard w' s = heard w s ++ [(p, m)]) /\ (~ connected w t u -> heard w' s = heard w s).
Proof.
  intros H N NC P [x [G [T [R O]]]] S. pose proof (reach _ _ H) as GD. pose proof (reach_sync _ _ H N) as Y.
  pose proof (chans_right w p t s x GD Y NC P G O R) as X. rewrite T in X. rewrite (send_heard w p m w' s x S G).
  destruct (mem p (s_chans x)) eqn:M; [apply mem_In in M|apply mem_false in M]; rewrite ?app_nil_r; tauto.
Qed.
Print Assumptions C82_first_message.

(** Whatever went on before, even if the server gave up waiting: once it has nothing in hand and
    the subscriber has dealt with what it was told. *)
Theorem C82_settled ls w p t s u m w' :
  steps start ls = Some w -> idle w -> caught_up w s ->
  publisher w p t -> subscriber w s u -> step w (Send p m) = Some w' ->
  (connected w t u -> heard w' s = heard w s ++ [(p, m)]) /\ (~ connected w t u -> heard w' s = heard w s).
Proof.
  intros H I [x0 [G0 [IB K]]] P [x [G [T [R O]]]] S. rewrite G in G0. injection G0 as <-. pose proof (reach _ _ H) as GD.
  pose proof (chans_settled w p t s x GD I P G O IB K) as X. rewrite T in X. rewrite (send_heard w p m w' s x S G).
  destruct (mem p (s_chans x)) eqn:M; [apply mem_In in M|apply mem_false in M]; rewrite ?app_nil_r; tauto.
Qed.
Print Assumptions C82_settled.

(** From then on, as long as the topics stay connected, every message of the publisher is received
    once and in order, whatever else is created, closed, connected, disconnected or given up; and as
    long as they stay unconnected, none is. *)
Theorem C82_every_message ls1 w1 p t s u (b : bool) ls2 w2 :
  steps start ls1 = Some w1 ->
  (never times_out ls1 /\ ~ changing w1) \/ (idle w1 /\ caught_up w1 s) ->
  throughout (fun w => publisher w p t /\ subscriber w s u /\ (b = true <-> connected w t u)) w1 ls2 ->
  steps w1 ls2 = Some w2 ->
  from p (heard w2 s) = from p (heard w1 s) ++ (if b then sent_by p ls2 else []).
Proof.
  intros H1 HS T H2. pose proof (reach _ _ H1) as GD. pose proof (throughout_now _ _ _ T) as L. pose proof L as [_ [[x [G _]] _]].
  apply (lasting_heard ls2 w1 w2 p s t u b x GD T H2 G). destruct HS as [[N NC]|[I C]].
  - exact (all_say_sync w1 p t s u b x GD (reach_sync _ _ H1 N) NC L G).
  - exact (all_say_settled w1 p t s u b x GD I C L G).
Qed.
Print Assumptions C82_every_message.

(** When a query of the graph, made after every connect() and disconnect() has returned, has
    returned too, their changes have reached the subscribers. *)
Theorem C82_after_query ls1 w1 ls2 w2 p t s u m w' :
  steps start ls1 = Some w1 -> no_change_open w1 ->
  steps w1 (CallQuery :: ls2) = Some w2 -> never calls_change ls2 -> In (w_next w1, AGraph) (w_answers w2) ->
  never times_out (ls1 ++ ls2) ->
  publisher w2 p t -> subscriber w2 s u -> step w2 (Send p m) = Some w' ->
  (connected w2 t u -> heard w' s = heard w2 s ++ [(p, m)]) /\ (~ connected w2 t u -> heard w' s = heard w2 s).
Proof.
  intros H1 O H2 NC A N P S E. pose proof (reach _ _ H1) as GD.
  assert (H12 : steps start (ls1 ++ CallQuery :: ls2) = Some w2) by (rewrite steps_app, H1; exact H2).
  refine (C82_first_message _ w2 p t s u m w' H12 _ _ P S E).
  - intros l I. apply in_app_or in I as [I|[<-|I]]; [apply N, in_or_app; now left|reflexivity|apply N, in_or_app; now right].
  - apply (quiet_steps (CallQuery :: ls2) w1 w2 (w_next w1) GD H2); [intros l [<-|I]; [reflexivity|exact (NC l I)]|exact O| |exact A].
    intros I. exfalso. apply (c_answer _ (g_ctl _ GD)) in I. lia.
Qed.
Print Assumptions C82_after_query.

(** The system comes to rest: what it does by itself is bounded. *)
Theorem C82_comes_to_rest ls w : steps start ls = Some w ->
  exists n, forall ls' w', (forall l, In l ls' -> by_itself l = true) -> steps w ls' = Some w' -> length ls' <= n.
Proof.
  intros H. exists (todo_left w). intros ls' w' B S. pose proof (bounded ls' w w' (reach _ _ H) B S). lia.
Qed.
Print Assumptions C82_comes_to_rest.

(** At rest, every create has returned and every call is answered, if nobody left while others were
    being connected and every publisher found a port. *)
Theorem C82_calls_return ls w : steps start ls = Some w -> never goes_wrong ls -> at_rest w ->
  (forall p y, get p (w_pubs w) = Some y -> publisher w p (p_topic y)) /\
  (forall s x, get s (w_subs w) = Some x -> subscriber w s (s_topic x) /\ caught_up w s) /\
  idle w /\ (forall i, ~ waits w i) /\
  (forall i, i < w_next w -> get i (w_pubs w) <> None \/ get i (w_subs w) <> None \/ exists a, In (i, a) (w_answers w)).
Proof.
  intros H N R. pose proof (reach _ _ H) as GD.
  destruct (well_steps ls start w) as [NR NCL]; [intros ? ? X; discriminate|intros ? ? X; discriminate|exact N|exact H|].
  destruct (safe_steps ls start w Good_start) as [NG ND]; [intros ? ? X; discriminate|intros ? ? X; discriminate| |exact H|].
  { intros l I. specialize (N l I). destruct l; try reflexivity. discriminate. }
  assert (J : w_job w = None).
  { destruct (rest_job w GD R) as [J|[p [y [_ [G P]]]]]; [exact J|]. destruct (NR p y G P). }
  split; [|split; [|split; [exact J|split]]].
  - intros p y G. destruct (rest_pub w p y GD R J G) as [P|P]; [|destruct (NG p y G P)]. exists (p_sent y). rewrite G. destruct y as [t g b]. cbn in *. now subst g.
  - intros s x G. destruct (rest_sub w s x GD R J G) as [[P1 [P2 [P3 P4]]]|[P|P]]; [|destruct (ND s x G P)|destruct (NCL s x G P)]. split; exists x; auto.
  - intros i W. apply W. exact (rest_waiting w i GD R J).
  - intros i L. destruct (somewhere_steps ls start w Good_start ltac:(intros k Hk; cbn in Hk; lia) H i L) as [X|[X|[X|X]]]; auto.
    destruct (X (rest_waiting w i GD R J)).
Qed.
Print Assumptions C82_calls_return.

(** Even if publishers and subscribers leave, nobody else is left waiting, except where a publisher
    found no port or a subscriber was cut off. *)
Theorem C82_others_return ls w : steps start ls = Some w -> at_rest w -> (forall p, ~ raised w p) ->
  idle w /\ (forall i, ~ waits w i) /\
  (forall p y, get p (w_pubs w) = Some y -> publisher w p (p_topic y) \/ p_stage y = PGone) /\
  (forall s x, get s (w_subs w) = Some x -> subscriber w s (s_topic x) /\ caught_up w s \/ cut_off w s \/ s_stage x = SClosed) /\
  (forall i, i < w_next w -> get i (w_pubs w) <> None \/ get i (w_subs w) <> None \/ exists a, In (i, a) (w_answers w)).
Proof.
  intros H R NR. pose proof (reach _ _ H) as GD.
  assert (J : w_job w = None).
  { destruct (rest_job w GD R) as [J|[p [y [_ [G P]]]]]; [exact J|]. destruct (NR p). exists y. auto. }
  split; [exact J|]. split; [|split; [|split]].
  - intros i W. apply W. exact (rest_waiting w i GD R J).
  - intros p y G. destruct (rest_pub w p y GD R J G) as [P|P]; [left|now right]. exists (p_sent y). rewrite G. destruct y as [t g b]. cbn in *. now subst g.
  - intros s x G. destruct (rest_sub w s x GD R J G) as [[P1 [P2 [P3 P4]]]|[P|P]]; [left; split; exists x; auto|right; left; exists x; auto|auto].
  - intros i L. destruct (somewhere_steps ls start w Good_start ltac:(intros k Hk; cbn in Hk; lia) H i L) as [X|[X|[X|X]]]; auto.
    destruct (X (rest_waiting w i GD R J)).
Qed.
Print Assumptions C82_others_return.

(** A subscriber is cut off only if some publisher left. *)
Theorem C82_cut_off_only_by_departure ls w s : steps start ls = Some w -> never publisher_leaves ls -> ~ cut_off w s.
Proof.
  intros H N [x [G D]]. destruct (safe_steps ls start w Good_start) as [_ ND]; [intros ? ? X; discriminate|intros ? ? X; discriminate| |exact H|exact (ND s x G D)].
  intros l I. specialize (N l I). destruct l; try reflexivity. discriminate.
Qed.
Print Assumptions C82_cut_off_only_by_departure.

(* ---- a concrete case ---- *)

Open Scope string_scope.

(* Subscriber 0 on "B" and publisher 1 on "A"; call 2 connects them; call 3 queries; a second
   publisher 4 on "B". *)
Definition sub0 := [CallSubscribe "B"; Take 0; Notify; Read 0; Applied 0; Ack 0; Finish; Read 0].
Definition pub1 := [CallPublish "A"; Take 1; Listen 1; Register 1; Finish; PubReturns 1].
Definition conn2 := [CallConnect "A" "B"; Take 2; Notify; Read 0; Join 0 1; Applied 0; Ack 0; Finish].
Definition query3 := [CallQuery; Take 3].
Definition pub4 := [CallPublish "B"; Take 4; Listen 4; Register 4; Notify; Read 0; Join 0 4; Applied 0; Ack 0; Finish; PubReturns 4].
Definition case_run := (sub0 ++ pub1 ++ conn2 ++ query3 ++ pub4)%list.

Example C82_case : exists w w',
  steps start case_run = Some w /\ never times_out case_run /\ never goes_wrong case_run /\ ~ changing w /\ idle w /\ caught_up w 0 /\
  publisher w 1 "A" /\ publisher w 4 "B" /\ subscriber w 0 "B" /\ connected w "A" "B" /\
  In (3, AGraph) (w_answers w) /\
  steps w [Send 1 10; Send 4 20; Send 1 30] = Some w' /\ heard w' 0 = [(1, 10); (4, 20); (1, 30)].
Proof.
  let r := eval vm_compute in (steps start case_run) in match r with Some ?s => exists s end.
  match goal with |- context [steps start case_run = Some ?s] =>
    let r := eval vm_compute in (steps s [Send 1 10; Send 4 20; Send 1 30]) in match r with Some ?s' => exists s' end end.
  split; [vm_compute; reflexivity|].
  split; [intros l I; vm_compute in I; repeat (destruct I as [<-|I]; [reflexivity|]); destruct I|].
  split; [intros l I; vm_compute in I; repeat (destruct I as [<-|I]; [reflexivity|]); destruct I|].
  split; [intros [td [cu X]]; discriminate|]. split; [reflexivity|].
  split; [eexists; split; [vm_compute; reflexivity|split; reflexivity]|].
  split; [eexists; vm_compute; reflexivity|]. split; [eexists; vm_compute; reflexivity|].
  split; [eexists; split; [vm_compute; reflexivity|repeat split]|].
  split; [right; apply t_step; exists ["B"]; vm_compute; auto|].
  split; [vm_compute; auto|]. split; vm_compute; reflexivity.
Qed.

(* And it is at rest there. *)
Example C82_case_rest : exists w, steps start case_run = Some w /\ at_rest w.
Proof.
  let r := eval vm_compute in (steps start case_run) in match r with Some ?s => exists s end.
  split; [vm_compute; reflexivity|].
  intros l B. destruct l as [| | | | | | | | |i|p|p| |s| | |p|s|s q|s q|s|p|s]; try discriminate B; try reflexivity;
    try (do 5 (destruct p as [|p]; [reflexivity|]); reflexivity); try (destruct s as [|s]; [reflexivity|]; reflexivity).
Qed.

(* ---- findings ---- *)

(** C82 finding: a publisher that leaves just after it was announced cuts off an existing subscriber,
    silently and for ever: Channel.create raises (messagechannel.py:156-186) inside the subscriber's
    task (subclient.py:233-236), whose finally-clause unregisters all its channels (266-269).  It then
    hears nothing from any publisher, though other publishers on its topic are there and publishing. *)
Theorem C82_departure_cuts_off_others_refuted :
  exists ls w, steps start ls = Some w /\ never times_out ls /\ publisher w 1 "T" /\ returned w 0 /\ ~ In (SubCloses 0) ls /\
    (exists x, get 0 (w_subs w) = Some x /\ s_topic x = "T") /\ heard w 0 = [(1, 10)] /\
    (forall ls' w', steps w ls' = Some w' -> heard w' 0 = [(1, 10)]) /\
    exists w', step w (Send 1 11) = Some w'.
Proof.
  set (ls := [CallSubscribe "T"; Take 0; Notify; Read 0; Applied 0; Ack 0; Finish; Read 0;
              CallPublish "T"; Take 1; Listen 1; Register 1; Notify; Read 0; Join 0 1; Applied 0; Ack 0; Finish; PubReturns 1; Send 1 10;
              CallPublish "T"; Take 2; Listen 2; Register 2; Notify; Read 0; PubCloses 2; JoinFails 0 2]).
  exists ls. let r := eval vm_compute in (steps start ls) in match r with Some ?s => exists s end.
  match goal with |- steps start ls = Some ?s /\ _ => assert (E : steps start ls = Some s) by (vm_compute; reflexivity) end.
  split; [exact E|].
  split; [intros l I; vm_compute in I; repeat (destruct I as [<-|I]; [reflexivity|]); destruct I|].
  split; [eexists; vm_compute; reflexivity|].
  split; [eexists; split; [vm_compute; reflexivity|reflexivity]|].
  split; [intros I; vm_compute in I; repeat (destruct I as [I|I]; [discriminate|]); destruct I|].
  split; [eexists; split; [vm_compute; reflexivity|reflexivity]|].
  split; [vm_compute; reflexivity|]. split.
  - intros ls' w' H. destruct (ended_steps ls' _ w' 0 (mkSub "T" SDead true [] None [] 0 [(1, 10)]) (reach _ _ E) H) as [x' [G' [_ [_ O]]]].
    + vm_compute. reflexivity.
    + split; [now left|reflexivity].
    + unfold heard. rewrite G'. exact O.
  - eexists. vm_compute. reflexivity.
Qed.
Print Assumptions C82_departure_cuts_off_others_refuted.

(** C82 finding: in the same situation Subscriber.create never returns: the task that would set
    _initialized (subclient.py:223) has ended, and create waits for ever (89). *)
Theorem C82_create_hangs_refuted :
  exists ls w, steps start ls = Some w /\ never times_out ls /\ ~ In (SubCloses 1) ls /\ get 1 (w_subs w) <> None /\
    forall ls' w', steps w ls' = Some w' -> ~ returned w' 1.
Proof.
  set (ls := [CallPublish "T"; Take 0; Listen 0; Register 0; Finish; PubReturns 0;
              CallSubscribe "T"; Take 1; Notify; Read 1; PubCloses 0; JoinFails 1 0]).
  exists ls. let r := eval vm_compute in (steps start ls) in match r with Some ?s => exists s end.
  match goal with |- steps start ls = Some ?s /\ _ => assert (E : steps start ls = Some s) by (vm_compute; reflexivity) end.
  split; [exact E|].
  split; [intros l I; vm_compute in I; repeat (destruct I as [<-|I]; [reflexivity|]); destruct I|].
  split; [intros I; vm_compute in I; repeat (destruct I as [I|I]; [discriminate|]); destruct I|].
  split; [vm_compute; discriminate|].
  intros ls' w' H [x [G R]]. destruct (ended_steps ls' _ w' 1 (mkSub "T" SDead false [] None [] 0 []) (reach _ _ E) H) as [x' [G' [_ [R' _]]]].
  - vm_compute. reflexivity.
  - split; [now left|reflexivity].
  - rewrite G in G'. injection G' as <-. cbn in R'. congruence.
Qed.
Print Assumptions C82_create_hangs_refuted.

(** C82 finding: if a subscriber does not apply an update within a second (graphserver.py:1747-1758),
    Publisher.create returns before the subscriber is connected, and the first message is lost. *)
Theorem C82_time_out_loses_message_refuted :
  exists ls w w', steps start ls = Some w /\ ~ changing w /\ publisher w 1 "T" /\ subscriber w 0 "T" /\ connected w "T" "T" /\
    step w (Send 1 10) = Some w' /\ heard w' 0 = heard w 0.
Proof.
  set (ls := [CallSubscribe "T"; Take 0; Notify; Read 0; Applied 0; Ack 0; Finish; Read 0;
              CallPublish "T"; Take 1; Listen 1; Register 1; Notify; TimeOut; Finish; PubReturns 1]).
  exists ls. let r := eval vm_compute in (steps start ls) in match r with Some ?s => exists s end.
  match goal with |- context [steps start ls = Some ?s] =>
    let r := eval vm_compute in (step s (Send 1 10)) in match r with Some ?s' => exists s' end end.
  split; [vm_compute; reflexivity|]. split; [intros [td [cu X]]; discriminate|].
  split; [eexists; vm_compute; reflexivity|]. split; [eexists; split; [vm_compute; reflexivity|repeat split]|].
  split; [now left|]. split; vm_compute; reflexivity.
Qed.
Print Assumptions C82_time_out_loses_message_refuted.

(** C82 finding: and after one such time-out, a later Publisher.create that times out nowhere returns
    too early as well: the subscriber's late COMPLETE of the old update is taken for that of the new
    one (graphserver.py:556-557; an answer says nothing about the update it answers). *)
Theorem C82_late_answer_misleads_refuted :
  exists ls1 w1 ls2 w2 w', steps start ls1 = Some w1 /\ steps w1 (CallPublish "T" :: ls2) = Some w2 /\ never times_out ls2 /\ ~ changing w2 /\
    publisher w2 (w_next w1) "T" /\ subscriber w2 0 "T" /\
    step w2 (Send (w_next w1) 10) = Some w' /\ heard w' 0 = heard w2 0.
Proof.
  set (ls1 := [CallSubscribe "T"; Take 0; Notify; Read 0; Applied 0; Ack 0; Finish; Read 0;
               CallPublish "T"; Take 1; Listen 1; Register 1; Notify; TimeOut; Finish; PubReturns 1]).
  set (ls2 := [Take 2; Listen 2; Register 2; Notify; Read 0; Join 0 1; Applied 0; Ack 0; Finish; PubReturns 2]).
  exists ls1. let r := eval vm_compute in (steps start ls1) in match r with Some ?s => exists s end.
  exists ls2. match goal with |- context [steps start ls1 = Some ?s] =>
    let r := eval vm_compute in (steps s (CallPublish "T" :: ls2)) in match r with Some ?s' => exists s' end end.
  match goal with |- context [never times_out ls2 /\ ~ changing ?s /\ _] =>
    let r := eval vm_compute in (step s (Send 2 10)) in match r with Some ?s' => exists s' end end.
  split; [vm_compute; reflexivity|]. split; [vm_compute; reflexivity|].
  split; [intros l I; vm_compute in I; repeat (destruct I as [<-|I]; [reflexivity|]); destruct I|].
  split; [intros [td [cu X]]; discriminate|].
  split; [eexists; vm_compute; reflexivity|]. split; [eexists; split; [vm_compute; reflexivity|repeat split]|].
  split; vm_compute; reflexivity.
Qed.
Print Assumptions C82_late_answer_misleads_refuted.

(** C82 finding: a Publisher.create that finds no port raises (pubclient.py:192) without closing its
    connection to the server, which holds the command lock while it waits for the publisher's address
    (graphserver.py:426, 446): until that connection is gone, no call of anybody is served. *)
Theorem C82_no_port_blocks_everybody_refuted :
  exists ls w, steps start ls = Some w /\ raised w 0 /\ waits w 1 /\
    forall ls' w', ~ In (PubCloses 0) ls' -> steps w ls' = Some w' -> waits w' 1.
Proof.
  set (ls := [CallPublish "T"; Take 0; PortFails 0; CallSubscribe "T"]).
  exists ls. let r := eval vm_compute in (steps start ls) in match r with Some ?s => exists s end.
  match goal with |- steps start ls = Some ?s /\ _ => assert (E : steps start ls = Some s) by (vm_compute; reflexivity) end.
  split; [exact E|]. split; [eexists; split; [vm_compute; reflexivity|reflexivity]|]. split; [vm_compute; discriminate|].
  intros ls' w' N H. apply (stuck_steps ls' 0 _ w' 1 (reach _ _ E)); [|exact N|exact H|vm_compute; discriminate].
  split; [reflexivity|]. eexists. split; [vm_compute; reflexivity|split; reflexivity].
Qed.
Print Assumptions C82_no_port_blocks_everybody_refuted.

(** C82 finding: connect() returns before the subscribers are told (graphserver.py:476 answers, 487
    notifies): a message published right afterwards is not received. *)
Theorem C82_connect_returns_early_refuted :
  exists ls w w', steps start ls = Some w /\ never times_out ls /\ In (2, AComplete) (w_answers w) /\
    publisher w 1 "A" /\ subscriber w 0 "B" /\ connected w "A" "B" /\
    step w (Send 1 10) = Some w' /\ heard w' 0 = heard w 0.
Proof.
  set (ls := (sub0 ++ pub1 ++ [CallConnect "A" "B"; Take 2])%list).
  exists ls. let r := eval vm_compute in (steps start ls) in match r with Some ?s => exists s end.
  match goal with |- context [steps start ls = Some ?s] =>
    let r := eval vm_compute in (step s (Send 1 10)) in match r with Some ?s' => exists s' end end.
  split; [vm_compute; reflexivity|].
  split; [intros l I; vm_compute in I; repeat (destruct I as [<-|I]; [reflexivity|]); destruct I|].
  split; [vm_compute; auto|].
  split; [eexists; vm_compute; reflexivity|]. split; [eexists; split; [vm_compute; reflexivity|repeat split]|].
  split; [right; apply t_step; exists ["B"]; vm_compute; auto|]. split; vm_compute; reflexivity.
Qed.
Print Assumptions C82_connect_returns_early_refuted.
