(* Property C30: subscribers are wired to exactly the upstream publishers. *)

From Coq Require Import String List Arith Bool Lia.
From Verif Require Import Dict DagModel DagSpec DagProofs EventLogModel ServerModel ServerProofs RoutingModel
  RoutingSpec RoutingProofs.
Import ListNotations.

Fixpoint nexec (n : net) (ls : list nlabel) : option net :=
  match ls with
  | [] => Some n
  | a :: r => match nstep n a with Some (n', _) => nexec n' r | None => None end
  end.

Lemma nexec_nrun sl tl ls : forall n h n', nrun sl tl n h -> nexec n ls = Some n' -> nrun sl tl n' (h ++ ls).
Proof.
  induction ls as [|a ls IH]; intros n h n' R E; cbn [nexec] in E.
  - injection E as <-. now rewrite app_nil_r.
  - destruct (nstep n a) as [[n1 r]|] eqn:S; [|discriminate].
    replace (h ++ a :: ls) with ((h ++ [a]) ++ ls) by now rewrite <- app_assoc.
    eapply IH; [|exact E]. econstructor; eauto.
Qed.

(** Missing from the full claim: executions in which commands of different
    sessions overlap (C30_session_updates_overtake_refuted). *)

(** If commands that notify come one at a time, every live subscriber's last
    update names exactly the live publishers that reach it. *)
Theorem C30_wired_one_command_at_a_time_partial :
  forall (sl tl : nat) (n : net), calm sl tl n -> quiet n -> all_wired n.
Proof. exact calm_wired. Qed.
Print Assumptions C30_wired_one_command_at_a_time_partial.

(** The server itself sees to that as long as only publishers, subscribers and
    persistent edges are involved: any interleaving, any timeouts, any
    disconnections. *)
Theorem C30_wired_without_session_edges_partial :
  forall (sl tl : nat) (n : net) (h : list nlabel), nrun sl tl n h ->
  (forall a, In a h -> ~ session_edge_command a) -> quiet n -> all_wired n.
Proof.
  intros sl tl n h R N. exact (calm_wired sl tl n (proj1 (persistent_calm sl tl n h R N))).
Qed.
Print Assumptions C30_wired_without_session_edges_partial.

(** In every execution: a subscriber whose last update written is the last one
    computed for it is wired exactly. *)
Theorem C30_wired_unless_overtaken_partial :
  forall (sl tl : nat) (n : net) (h : list nlabel), nrun sl tl n h -> quiet n ->
  forall (i : nat) (t : topic) (pubs : list nat), live_sub (n_srv n) i t ->
  last_for i (n_written n) = last_for i (n_computed n) ->
  last_for i (n_written n) = Some pubs -> exact_for (n_srv n) t pubs.
Proof. exact quiet_in_order. Qed.
Print Assumptions C30_wired_unless_overtaken_partial.

(** And every such subscriber was computed an exact update: nobody is missed. *)
Theorem C30_nobody_is_missed :
  forall (sl tl : nat) (n : net) (h : list nlabel), nrun sl tl n h -> quiet n ->
  forall (i : nat) (t : topic), live_sub (n_srv n) i t ->
  exists pubs, last_for i (n_computed n) = Some pubs /\ exact_for (n_srv n) t pubs.
Proof. exact quiet_computed. Qed.
Print Assumptions C30_nobody_is_missed.

(** Notifications always can run to their end, without any answer from the
    subscribers. *)
Theorem C30_notifications_finish :
  forall (sl tl : nat) (n : net) (h : list nlabel), nrun sl tl n h ->
  exists n' h', nrun sl tl n' (h ++ h') /\ n_srv n' = n_srv n /\ quiet n'.
Proof. exact notifications_finish. Qed.
Print Assumptions C30_notifications_finish.

Local Open Scope string_scope.
Local Open Scope nat_scope.
Local Open Scope list_scope.

(** One notification of subscriber 0 by task [k], answered. *)
Definition serve (k : nat) : list nlabel :=
  [NTopic k; NCompute k; NEnter k; NComplete 0; NLeave k; NEnd k].

(** Subscriber 0 on b; publisher 1 on a; a -> b is connected, a second publisher 2
    on c, c -> a connected, then the first publisher leaves and a -> b is removed
    and connected again. *)
Definition persistent : list nlabel :=
  [NCmd (LSubscribe "b"); NCompute 0; NEnter 0; NTimeout 0; NEnd 0;
   NCmd (LPublish "a"); NTopic 1; NEnd 1] ++
  [NCmd (LConnect "a" "b")] ++ serve 2 ++
  [NCmd (LPublish "c"); NTopic 3; NEnd 3; NCmd (LConnect "c" "a")] ++ serve 4 ++
  [NCmd (LClientGone 1); NCmd (LDisconnect "a" "b")] ++ serve 5 ++
  [NCmd (LConnect "a" "b")] ++ serve 6.

Example C30_case :
  exists n, nrun 8 8 n persistent /\ (forall a, In a persistent -> ~ session_edge_command a) /\ quiet n /\
    live_sub (n_srv n) 0 "b" /\ live_pub (n_srv n) 2 "c" /\
    n_written n = [(0, []); (0, [1]); (0, [1; 2]); (0, []); (0, [2])].
Proof.
  destruct (nexec (new_net 8 8) persistent) as [n|] eqn:E; [|vm_compute in E; discriminate].
  exists n. split; [apply (nexec_nrun 8 8 persistent (new_net 8 8) [] n); [constructor|exact E]|].
  split.
  - intros a I [sid [->|[->|[f [t [->| ->]]]]]]; vm_compute in I;
      repeat (destruct I as [I|I]; [discriminate I|]); exact I.
  - vm_compute in E. injection E as <-. split; [reflexivity|]. vm_compute. intuition.
Qed.

(** Subscriber 0 on b, publisher 1 on a, sessions 2, 3, 4; session 4 connects
    a -> b.  Session 2 connects c -> b: the update [1] is sent.  Session 3
    connects d -> b: its update [1] waits for the subscriber's COMPLETE.  The
    COMPLETE wakes it, but before it runs session 4 disconnects a -> b, finds the
    writer free and sends []; then the older update [1] is sent.  (With Python
    3.12 or later, where wait_for runs the update in the calling task, it is
    enough that session 4's command is read in the same turn of the event loop as
    the COMPLETE, after it.) *)
Definition overtaking : list nlabel :=
  [NCmd (LSubscribe "b"); NCompute 0; NEnter 0; NComplete 0; NLeave 0; NEnd 0;
   NCmd (LPublish "a"); NTopic 1; NEnd 1;
   NCmd LSession; NCmd LSession; NCmd LSession; NCmd (LSessConnect 4 "a" "b")] ++ serve 2 ++
  [NCmd (LSessConnect 2 "c" "b"); NTopic 3; NCompute 3; NEnter 3;
   NCmd (LSessConnect 3 "d" "b"); NTopic 4; NCompute 4; NEnter 4;
   NComplete 0;
   NCmd (LSessDisconnect 4 "a" "b"); NTopic 5; NCompute 5; NEnter 5;
   NLeave 3; NEnd 3; NWrite 4; NComplete 0; NLeave 5; NEnd 5; NLeave 4; NEnd 4].

(** C30 finding: the update of a later command can be written before that of an earlier one, so a
    subscriber ends with a stale set of publishers. *)
Theorem C30_session_updates_overtake_refuted :
  exists n, nrun 8 8 n overtaking /\ quiet n /\ live_sub (n_srv n) 0 "b" /\ live_pub (n_srv n) 1 "a" /\
    last_for 0 (n_written n) = Some [1] /\ ~ reaches (n_srv n) "a" "b" /\
    (forall k, ~ In (NTimeout k) overtaking).
Proof.
  destruct (nexec (new_net 8 8) overtaking) as [n|] eqn:E; [|vm_compute in E; discriminate].
  assert (R : nrun 8 8 n overtaking) by (apply (nexec_nrun 8 8 overtaking (new_net 8 8) [] n); [constructor|exact E]).
  exists n. split; [exact R|].
  assert (D : downstream "a" (s_dag (n_srv n)) = ["a"]).
  { vm_compute in E. injection E as <-. reflexivity. }
  assert (Nr : ~ reaches (n_srv n) "a" "b").
  { intros H. pose proof (ni_srv _ (NInv_run _ _ _ _ R)) as C.
    assert (K : In "b" (downstream "a" (s_dag (n_srv n)))).
    { apply (proj2 (downstream_spec _ "a" (c_dag _ _ _ C))). destruct H as [H|H]; [discriminate|now right]. }
    rewrite D in K. destruct K as [K|K]; [discriminate|destruct K]. }
  vm_compute in E. injection E as <-. split; [reflexivity|].
  split; [vm_compute; tauto|]. split; [vm_compute; tauto|]. split; [reflexivity|]. split; [exact Nr|].
  intros k I. vm_compute in I. repeat (destruct I as [I|I]; [discriminate I|]). exact I.
Qed.
Print Assumptions C30_session_updates_overtake_refuted.
