(** C15-C23: the publish/subscribe data path. [cfg]: any sensible configuration (any number of publishers,
    channels, subscribers; any transports and buffer counts). [reach]: every state of every schedule in which a
    subscriber registers again with a publisher only after releasing the messages it held when disconnected. *)
From Coq Require Import List ZArith Arith Bool Lia Sorted.
From Verif Require Import BackpressureModel CacheModel TransportModel PubSubModel PubSubSpec PubSubProofs.
Import ListNotations.

(** * Example configuration and schedules *)
Definition ex_cfg (n : nat) : config :=
  {| nbuf := fun _ => n; pubof := fun _ => 0; kind := fun c => match c with 0 => InProcess | 1 => Tcp | _ => SharedMemory end;
     own := fun c => match c with 0 => true | _ => false end; maxq := fun s => match s with 2 => Some 1%Z | _ => None end |}.

Lemma ex_wf n : 0 < n -> wf (ex_cfg n).
Proof. intros H. constructor; [intros p; exact H|]. intros [|[|c]]; cbn; congruence. Qed.

Fixpoint run_ok (cfg : config) (x : st nat) (ls : list (label nat)) : option (st nat) :=
  match ls with
  | [] => Some x
  | l :: ls' =>
      let ok := match l with
                | LJoin s c => forallb (fun r => negb (r_stale r && Nat.eqb (r_pub r) (pubof cfg c))) (s_reading (sbs x s))
                | _ => true end in
      if ok then match step cfg x l with Some x' => run_ok cfg x' ls' | None => None end else None
  end.

Lemma run_ok_reach cfg ls : forall x y, reach cfg x -> run_ok cfg x ls = Some y -> reach cfg y.
Proof.
  induction ls as [|l ls IH]; cbn; intros x y R E; [now injection E as <-|].
  assert (Q : join_ok cfg x l \/ run_ok cfg x (l :: ls) = None).
  { cbn. destruct l; try (left; exact I). destruct (forallb _ _) eqn:F; [|now right]. left. rewrite forallb_forall in F.
    intros r Hr Hs Hp. specialize (F r Hr). rewrite Hs, Hp, Nat.eqb_refl in F. discriminate. }
  destruct Q as [J|Q]; [|cbn in Q; congruence].
  destruct (match l with LJoin s c => _ | _ => true end); [|discriminate]. destruct (step cfg x l) as [x'|] eqn:St; [|discriminate].
  eapply IH; [|exact E]. econstructor; eauto.
Qed.

(** The state after the labels (last one first). *)
Fixpoint after (cfg : config) (ls : list (label nat)) : st nat :=
  match ls with
  | [] => init cfg
  | l :: ls' => match step cfg (after cfg ls') l with Some y => y | None => after cfg ls' end
  end.

Lemma reachg_after cfg l ls : reachg cfg (after cfg ls) -> join_ok cfg (after cfg ls) l -> get_ok (after cfg ls) l ->
  (if step cfg (after cfg ls) l then True else False) -> reachg cfg (after cfg (l :: ls)).
Proof. intros R J G S. cbn. destruct (step cfg (after cfg ls) l) as [y|] eqn:E; [|destruct S]. econstructor; eauto. Qed.

Lemma reachw_after cfg l ls : reachw cfg (after cfg ls) -> join_ok cfg (after cfg ls) l -> leave_ok cfg (after cfg ls) l ->
  (if step cfg (after cfg ls) l then True else False) -> prompt (after cfg (l :: ls)) -> keeps cfg (after cfg (l :: ls)) -> reachw cfg (after cfg (l :: ls)).
Proof. cbn. intros R J L S P K. destruct (step cfg (after cfg ls) l) as [y|] eqn:E; [|destruct S]. econstructor; eauto. Qed.

(** Two buffers; subscriber 0 on shared memory (channel 2), 1 on TCP, leaky 2 in process. Messages 7, 8, 9; the second
    needs a bigger segment. Subscriber 0 is reading message 0 and 1, 1 has one queued, the leaky one dropped two. *)
Definition ex_ls : list (label nat) :=
  [LConnect 0; LConnect 1; LConnect 2; LJoin 0 2; LJoin 1 1; LJoin 2 0;
   LBroadcast 0 7 false; LDrained 0; LDrained 0; LChanRecv 2; LChanRecv 1; LGet 0;
   LBroadcast 0 8 true; LGrown 0; LDrained 0; LChanRecv 1; LDrained 0; LGet 1; LRelease 1 0; LChanRecv 2; LReattach 2; LGet 0; LAck 1].
Definition ex_state : option (st nat) := run_ok (ex_cfg 2) (init (ex_cfg 2)) ex_ls.

(** * C15 *)
Theorem C15_reading_is_never_overwritten_partial : forall Obj cfg (x : st Obj) s r, wf cfg -> reach cfg x ->
  In r (s_reading (sbs x s)) -> r_stale r = false -> c_up (chs x (r_chan r)) = true ->
  visible x (r_pub r) (r_h r) = published x (r_pub r) (r_id r) /\ published x (r_pub r) (r_id r) <> None.
Proof. intros Obj cfg x s r W. exact (read_stable cfg W x s r). Qed.

Theorem C15_pending_message_is_never_overwritten_partial : forall Obj cfg (x : st Obj) s c m, wf cfg -> reach cfg x ->
  c_up (chs x c) = true -> c_re (chs x c) = None -> holds cfg x s c m ->
  exists h, cache_get (c_cache (chs x c)) m = Some h /\ visible x (pubof cfg c) h = published x (pubof cfg c) m /\
            published x (pubof cfg c) m <> None.
Proof. intros Obj cfg x s c m W. exact (queued_stable cfg W x s c m). Qed.

Theorem C15_received_is_what_was_sent : forall Obj cfg (x : st Obj) s p m v, wf cfg -> reach cfg x ->
  In (EGot m v) (s_hist (sbs x s) p) -> v = published x p m /\ v <> None.
Proof. intros Obj cfg x s p m v W. exact (got_sent cfg W x s p m v). Qed.

Example C15_case : match ex_state with
  | Some x => map (fun r => (r_id r, r_h r, visible x 0 (r_h r))) (s_reading (sbs x 0)) = [(0, View 0 0, Some 7); (1, View 1 1, Some 8)] /\
              map (fun r => r_stale r) (s_reading (sbs x 0)) = [false; false] /\ s_queue (sbs x 1) = [(0, 1)] /\
              c_up (chs x 2) = true /\ p_sent (pubs x 0) = [7; 8] /\ p_gen (pubs x 0) = 1
  | None => False end.
Proof. vm_compute. repeat split. Qed.

(** Findings: disconnecting a subscriber gives its leases back although it is still reading; another subscriber's
    release then lets the publisher overwrite the buffer. The subscriber's process stays connected. *)
Theorem C15_disconnect_while_reading_refuted : exists cfg ls (x : st nat) s r, wf cfg /\ run_ok cfg (init cfg) ls = Some x /\
  In r (s_reading (sbs x s)) /\ c_up (chs x (r_chan r)) = true /\ visible x (r_pub r) (r_h r) <> published x (r_pub r) (r_id r).
Proof.
  exists (ex_cfg 1), [LConnect 2; LJoin 0 2; LJoin 1 2; LBroadcast 0 7 false; LDrained 0; LChanRecv 2; LGet 0; LLeave 0 0;
    LGet 1; LRelease 1 0; LAck 2; LBroadcast 0 8 false]. eexists. exists 0. eexists.
  split; [apply ex_wf; lia|]. split; [vm_compute; reflexivity|]. split; [vm_compute; left; reflexivity|]. split; [reflexivity|]. vm_compute. discriminate.
Qed.

(** ... and registering again while still holding an old message lets the release of the old one free the buffer
    of a new one. *)
Theorem C15_rejoin_while_reading_refuted : exists cfg ls (x : st nat) s r, wf cfg /\ run cfg (init cfg) ls = Some x /\
  In r (s_reading (sbs x s)) /\ r_stale r = false /\ c_up (chs x (r_chan r)) = true /\
  visible x (r_pub r) (r_h r) <> published x (r_pub r) (r_id r).
Proof.
  exists (ex_cfg 1), [LConnect 2; LJoin 0 2; LJoin 1 2; LBroadcast 0 7 false; LDrained 0; LChanRecv 2; LGet 0; LLeave 0 0;
    LGet 1; LRelease 1 0; LAck 2; LJoin 0 2; LBroadcast 0 8 false; LDrained 0; LChanRecv 2; LGet 0; LRelease 0 0; LGet 1; LRelease 1 0; LAck 2;
    LBroadcast 0 9 false]. eexists. exists 0. eexists.
  split; [apply ex_wf; lia|]. split; [vm_compute; reflexivity|]. split; [vm_compute; left; reflexivity|]. split; [reflexivity|]. split; [reflexivity|]. vm_compute. discriminate.
Qed.

(** * C16. [reachg]: no receive falls into a segment switch or hits a lost connection. *)
Theorem C16_every_message_once_in_order_partial : forall Obj cfg (x : st Obj) s p c, wf cfg -> reachg cfg x -> never_drops cfg s ->
  s_chan (sbs x s) p = Some c -> delivers_from (p_sent (pubs x p)) (s_join (sbs x s) p) (s_hist (sbs x s) p).
Proof. intros Obj cfg x s p c W. exact (fifo_g cfg W x s p c). Qed.

(** On any schedule: as long as no receive failed. *)
Theorem C16_in_order_unless_a_receive_failed_partial : forall Obj cfg (x : st Obj) s p c, wf cfg -> reach cfg x -> never_drops cfg s ->
  s_chan (sbs x s) p = Some c -> (forall m, ~ In (EMiss m) (s_hist (sbs x s) p)) ->
  delivers_from (p_sent (pubs x p)) (s_join (sbs x s) p) (s_hist (sbs x s) p).
Proof. intros Obj cfg x s p c W. exact (fifo cfg W x s p c). Qed.

Theorem C16_next_receive_delivers : forall Obj cfg (x : st Obj) s p m q c, wf cfg -> reach cfg x -> s_queue (sbs x s) = (p, m) :: q ->
  s_chan (sbs x s) p = Some c -> c_up (chs x c) = true -> c_re (chs x c) = None ->
  exists y, step cfg x (LGet s) = Some y /\ s_hist (sbs y s) p = s_hist (sbs x s) p ++ [EGot m (published x p m)] /\ published x p m <> None.
Proof. intros Obj cfg x s p m q c W. exact (get_delivers cfg W x s p m q c). Qed.

(** Nothing is left over: with nothing in flight and an empty queue, the history reaches the last message sent. *)
Theorem C16_no_message_left_behind : forall Obj cfg (x : st Obj) s p c, wf cfg -> reach cfg x -> s_chan (sbs x s) p = Some c ->
  c_up (chs x c) = true -> c_wire (chs x c) = [] -> c_re (chs x c) = None -> between_broadcasts x p -> ids_of p (s_queue (sbs x s)) = [] ->
  s_join (sbs x s) p + length (s_hist (sbs x s) p) = length (p_sent (pubs x p)).
Proof. intros Obj cfg x s p c W. exact (complete cfg W x s p c). Qed.

Example C16_case : match ex_state with
  | Some x => s_hist (sbs x 0) 0 = [EGot 0 (Some 7); EGot 1 (Some 8)] /\ s_join (sbs x 0) 0 = 0 /\ s_chan (sbs x 0) 0 = Some 2 /\
              p_sent (pubs x 0) = [7; 8] /\ c_wire (chs x 2) = [] /\ s_queue (sbs x 0) = [] /\ p_phase (pubs x 0) = Idle
  | None => False end.
Proof. vm_compute. repeat split. Qed.

(** The hypotheses of the first theorem hold after a broadcast to a TCP subscriber. *)
Example C16_guard_case : exists x, reachg (ex_cfg 2) x /\ never_drops (ex_cfg 2) 1 /\ s_chan (sbs x 1) 0 = Some 1 /\
  s_hist (sbs x 1) 0 = [EGot 0 (Some 7)] /\ p_sent (pubs x 0) = [7].
Proof.
  exists (after (ex_cfg 2) [LGet 1; LChanRecv 1; LDrained 0; LBroadcast 0 7 false; LJoin 1 1; LConnect 1]). split.
  - repeat (match goal with |- reachg ?k (after ?k (?l :: ?ls)) => refine (reachg_after k l ls _ _ _ _) end; [|first [exact I|intros r []]|first [exact I|idtac]|vm_compute; exact I]); [apply reachg_init|].
    vm_compute. intros c [= <-]. split; reflexivity.
  - repeat split.
Qed.

(** Finding: a receive that falls into the switch to a bigger segment fails, the message is lost to a non-leaky
    subscriber although connection and registration are intact, and its buffer stays taken when everything else has been
    consumed. *)
Theorem C16_receive_during_switch_refuted : exists cfg ls (x : st nat), wf cfg /\ run_ok cfg (init cfg) ls = Some x /\ never_drops cfg 0 /\
  (forall c, ~ In (LChanDown c) ls) /\ (forall s p, ~ In (LLeave s p) ls) /\
  s_hist (sbs x 0) 0 = [EMiss 0; EGot 1 (Some 8)] /\ p_sent (pubs x 0) = [7; 8] /\
  s_queue (sbs x 0) = [] /\ s_reading (sbs x 0) = [] /\ c_wire (chs x 2) = [] /\ c_ackw (chs x 2) = [] /\ leased (p_bp (pubs x 0)) 2 0.
Proof.
  exists (ex_cfg 2), [LConnect 2; LJoin 0 2; LBroadcast 0 7 false; LDrained 0; LChanRecv 2; LBroadcast 0 8 true; LGrown 0; LDrained 0;
    LChanRecv 2; LGet 0; LReattach 2; LGet 0; LRelease 0 0; LAck 2]. eexists.
  split; [apply ex_wf; lia|]. split; [vm_compute; reflexivity|]. split; [exact I|].
  split; [intros c; cbn; intuition discriminate|]. split; [intros s p; cbn; intuition discriminate|].
  repeat (split; [reflexivity|]). vm_compute. eexists. split; [reflexivity|]. now left.
Qed.

(** * C17 *)
Theorem C17_received_is_an_increasing_subsequence : forall Obj cfg (x : st Obj) s p c, wf cfg -> reach cfg x -> s_chan (sbs x s) p = Some c ->
  StronglySorted lt (map fst (received (s_hist (sbs x s) p))) /\
  (forall m v, In (m, v) (received (s_hist (sbs x s) p)) -> v = published x p m /\ v <> None).
Proof. intros Obj cfg x s p c W. exact (leaky_increasing cfg W x s p c). Qed.

(** Every message that arrived since it registered is in the history (received, dropped or failed) or still
    queued, exactly once and in order. *)
Theorem C17_every_message_accounted_for : forall Obj cfg (x : st Obj) s p c, wf cfg -> reach cfg x -> s_chan (sbs x s) p = Some c ->
  map ev_id (s_hist (sbs x s) p) ++ ids_of p (s_queue (sbs x s)) = seq (s_join (sbs x s) p) (c_next (chs x c) - s_join (sbs x s) p).
Proof. intros Obj cfg x s p c W. exact (accounted cfg W x s p c). Qed.

Theorem C17_missed_messages_are_released : forall Obj cfg (x : st Obj) s p m, wf cfg -> reach cfg x ->
  In (EDrop m) (s_hist (sbs x s) p) \/ In (EMiss m) (s_hist (sbs x s) p) -> forall c, pubof cfg c = p -> ~ holds cfg x s c m.
Proof. intros Obj cfg x s p m W. exact (gone_not_held cfg W x s p m). Qed.

(** The buffers a subscriber keeps are exactly those of messages queued or being read, and a leaky queue is bounded. *)
Theorem C17_keeps_only_what_it_holds : forall Obj cfg (x : st Obj) s c b, wf cfg -> reach cfg x -> c_up (chs x c) = true ->
  (leased (c_bp (chs x c)) s b <-> exists m, holds cfg x s c m /\ slot_of cfg (pubof cfg c) m = b).
Proof. intros Obj cfg x s c b W. exact (lease_means_hold cfg W x s c b). Qed.

Theorem C17_queue_is_bounded : forall Obj cfg (x : st Obj) s k, wf cfg -> reach cfg x -> maxq cfg s = Some k -> (0 < k)%Z ->
  (Z.of_nat (length (s_queue (sbs x s))) <= k)%Z.
Proof. intros Obj cfg x s k W. exact (queue_limit cfg W x s k). Qed.

Example C17_case : match ex_state with
  | Some x => s_hist (sbs x 2) 0 = [EDrop 0] /\ s_queue (sbs x 2) = [(0, 1)] /\ maxq (ex_cfg 2) 2 = Some 1%Z /\ s_chan (sbs x 2) 0 = Some 0 /\ c_up (chs x 0) = true
  | None => False end.
Proof. vm_compute. repeat split. Qed.

(** * C18 *)
Theorem C18_at_most_num_buffers_outstanding : forall Obj cfg (x : st Obj) p l, wf cfg -> reach cfg x -> NoDup l ->
  (forall m, In m l -> outstanding cfg x p m) -> length l <= nbuf cfg p.
Proof. intros Obj cfg x p l W. exact (outstanding_few cfg W x p l). Qed.

(** A broadcast waits exactly when the buffer it needs is taken, and goes on exactly when it is free. *)
Theorem C18_broadcast_waits_iff_buffer_taken : forall Obj cfg (x : st Obj) p o grow y, wf cfg -> reach cfg x ->
  p_phase (pubs x p) = Idle -> p_run (pubs x p) = true -> step cfg x (LBroadcast p o grow) = Some y ->
  (waits_for_buffer y p <-> exists u, leased (p_bp (pubs x p)) u (slot_of cfg p (p_nxt (pubs x p)))).
Proof. intros Obj cfg x p o grow y W. exact (broadcast_waits cfg W x p o grow y). Qed.

Theorem C18_waiting_broadcast_goes_on_iff_free : forall Obj cfg (x : st Obj) p grow, wf cfg -> reach cfg x -> waits_for_buffer x p ->
  (step cfg x (LProceed p grow) <> None <-> forall u, ~ leased (p_bp (pubs x p)) u (slot_of cfg p (p_nxt (pubs x p)))).
Proof. intros Obj cfg x p grow W. exact (proceeds_iff_free cfg W x p grow). Qed.

(** The buffer of a message some subscriber holds is taken ... *)
Theorem C18_held_message_blocks_its_buffer : forall Obj cfg (x : st Obj) p m, wf cfg -> reach cfg x -> between_broadcasts x p ->
  outstanding cfg x p m -> exists u, leased (p_bp (pubs x p)) u (slot_of cfg p m).
Proof. intros Obj cfg x p m W. exact (held_blocks cfg W x p m). Qed.

(** ... and (on schedules without the incidents of C16, C21, C23) a taken buffer is the buffer of a message a
    connected process has not answered for, or of a process whose loss is about to be noticed. *)
Theorem C18_taken_buffer_is_unanswered : forall Obj cfg (x : st Obj) p u b, wf cfg -> reachw cfg x -> leased (p_bp (pubs x p)) u b ->
  pubof cfg u = p /\ In u (p_chans (pubs x p)) /\
  (c_up (chs x u) = true -> exists m, unanswered (chs x u) m /\ slot_of cfg p m = b).
Proof. intros Obj cfg x p u b W. exact (leased_answers cfg W x p u b). Qed.

Example C18_case : match ex_state with
  | Some x => match step (ex_cfg 2) x (LBroadcast 0 9 false) with
              | Some y => p_phase (pubs y 0) = WaitBuf 9 /\ step (ex_cfg 2) y (LProceed 0 false) = None /\
                          match run (ex_cfg 2) y [LRelease 0 0; LAck 2] with
                          | Some z => match step (ex_cfg 2) z (LProceed 0 false) with Some w => p_sent (pubs w 0) = [7; 8; 9] | None => False end
                          | None => False end
              | None => False end
  | None => False end.
Proof. vm_compute. repeat split. Qed.

(** * C19 *)
Theorem C19_sync_is_a_barrier_partial : forall Obj cfg (x : st Obj) p, wf cfg -> reach cfg x ->
  bp_sync_passes (p_bp (pubs x p)) = true -> between_broadcasts x p ->
  (forall m, ~ outstanding cfg x p m) /\
  (forall c, pubof cfg c = p -> c_up (chs x c) = true ->
     c_next (chs x c) = length (p_sent (pubs x p)) /\ forall m, ~ unanswered (chs x c) m).
Proof. intros Obj cfg x p W. exact (sync_barrier cfg W x p). Qed.

(** From any state at all, whatever else happens until the publisher is resumed. *)
Theorem C19_no_publication_while_paused_partial : forall Obj cfg ls (x y : st Obj) p, p_run (pubs x p) = false -> stoppable x p ->
  ~ In (LResume p) ls -> run cfg x ls = Some y -> p_sent (pubs y p) = p_sent (pubs x p).
Proof. intros Obj cfg ls x y p. exact (paused_silent cfg ls x y p). Qed.

(** A broadcast begun while paused waits, and resume lets it go on. *)
Theorem C19_broadcast_waits_while_paused_and_resumes : forall Obj cfg (x : st Obj) p o grow, p_phase (pubs x p) = Idle -> p_run (pubs x p) = false ->
  exists y, step cfg x (LBroadcast p o grow) = Some y /\ p_sent (pubs y p) = p_sent (pubs x p) /\
    (forall g, step cfg y (LProceed p g) = None) /\
    exists z, step cfg y (LResume p) = Some z /\ p_run (pubs z p) = true /\ forall g, step cfg z (LProceed p g) <> None.
Proof. intros Obj cfg x p o grow. exact (resume_wakes cfg x p o grow). Qed.

Example C19_case : match ex_state with
  | Some x => match run (ex_cfg 2) x [LPause 0; LGet 1; LGet 2; LRelease 1 0; LRelease 2 0; LRelease 0 0; LRelease 0 0] with
              | Some y => bp_sync_passes (p_bp (pubs y 0)) = false /\ stoppable y 0 /\ p_run (pubs y 0) = false /\
                          match run (ex_cfg 2) y [LAck 1; LAck 2; LAck 2; LBroadcast 0 9 false] with
                          | Some z => bp_sync_passes (p_bp (pubs z 0)) = true /\ p_phase (pubs z 0) = WaitRun 9 false /\ p_sent (pubs z 0) = [7; 8]
                          | None => False end
              | None => False end
  | None => False end.
Proof. vm_compute. repeat split. Qed.

(** Findings. A broadcast that was already waiting for a buffer publishes after pause() ... *)
Theorem C19_waiting_broadcast_ignores_pause_refuted : exists cfg (x y : st nat) ls1 ls2, wf cfg /\ run_ok cfg (init cfg) ls1 = Some x /\
  p_run (pubs x 0) = false /\ ~ In (LResume 0) ls2 /\ (forall o g, ~ In (LBroadcast 0 o g) ls2) /\ run cfg x ls2 = Some y /\
  p_run (pubs y 0) = false /\ p_sent (pubs x 0) = [7] /\ p_sent (pubs y 0) = [7; 8].
Proof.
  exists (ex_cfg 1). eexists. eexists. exists [LConnect 1; LJoin 0 1; LBroadcast 0 7 false; LDrained 0; LChanRecv 1; LBroadcast 0 8 false; LPause 0].
  exists [LGet 0; LRelease 0 0; LAck 1; LProceed 0 false].
  split; [apply ex_wf; lia|]. split; [vm_compute; reflexivity|]. split; [reflexivity|]. split; [cbn; intuition discriminate|].
  split; [intros o g; cbn; intuition discriminate|]. split; [vm_compute; reflexivity|]. repeat split.
Qed.

(** ... resume() followed at once by pause() lets a waiting broadcast through ... *)
Theorem C19_resume_then_pause_leaks_one_refuted : exists cfg (x y : st nat) ls1, wf cfg /\ run_ok cfg (init cfg) ls1 = Some x /\
  p_run (pubs x 0) = false /\ step cfg x (LProceed 0 false) = Some y /\ p_run (pubs y 0) = false /\ p_sent (pubs x 0) = [] /\ p_sent (pubs y 0) = [7].
Proof.
  exists (ex_cfg 1). eexists. eexists. exists [LPause 0; LBroadcast 0 7 false; LResume 0; LPause 0].
  split; [apply ex_wf; lia|]. split; [vm_compute; reflexivity|]. split; [reflexivity|]. split; [vm_compute; reflexivity|]. repeat split.
Qed.

(** ... and sync() can complete while a broadcast begun before it is still being written. *)
Theorem C19_sync_during_broadcast_refuted : exists cfg ls (x : st nat), wf cfg /\ run_ok cfg (init cfg) ls = Some x /\
  bp_sync_passes (p_bp (pubs x 0)) = true /\ p_run (pubs x 0) = false /\ p_sent (pubs x 0) = [7] /\ outstanding cfg x 0 0.
Proof.
  exists (ex_cfg 1), [LConnect 1; LJoin 0 1; LBroadcast 0 7 false; LPause 0; LChanRecv 1]. eexists.
  split; [apply ex_wf; lia|]. split; [vm_compute; reflexivity|]. repeat (split; [reflexivity|]).
  exists 0, 1. repeat split. left. vm_compute. now left.
Qed.

(** * C20. [drains n x y]: n consumption steps lead from x to y. There is a bound on their number, and when none
    is possible any more every buffer is free and every broadcast that waited for one can go on. *)
Theorem C20_consumption_ends_with_every_buffer_free_partial : forall Obj cfg (x : st Obj), wf cfg -> reachw cfg x -> calm x ->
  exists bound, forall n y, drains cfg n x y -> n <= bound /\
    ((forall z, ~ drain1 cfg y z) ->
       (forall s, s_queue (sbs y s) = [] /\ s_reading (sbs y s) = []) /\
       (forall p, bp_sync_passes (p_bp (pubs y p)) = true) /\
       (forall p grow, waits_for_buffer y p -> step cfg y (LProceed p grow) <> None)).
Proof. intros Obj cfg x W. exact (drains_free cfg W x). Qed.

Ltac quiet := first [ exact I
                    | solve [intros r []]
                    | intros q o cur todo; vm_compute; destruct q as [|q]; intros; discriminate
                    | intros c keys m g i; vm_compute; destruct c as [|[|c]]; intros; discriminate
                    | intros q o cur todo; vm_compute; destruct q as [|q]; [intros [= <- <- <-] _; left; now left|discriminate] ].

(** A state with a message queued at a TCP subscriber and a broadcast waiting for the only buffer. *)
Example C20_case : exists x : st nat, reachw (ex_cfg 1) x /\ calm x /\ s_queue (sbs x 0) = [(0, 0)] /\ waits_for_buffer x 0 /\
  bp_sync_passes (p_bp (pubs x 0)) = false /\ (forall grow, step (ex_cfg 1) x (LProceed 0 grow) = None) /\
  exists y, drain1 (ex_cfg 1) x y.
Proof.
  exists (after (ex_cfg 1) [LBroadcast 0 8 false; LChanRecv 1; LDrained 0; LBroadcast 0 7 false; LJoin 0 1; LConnect 1]). split.
  - repeat (match goal with |- reachw ?k (after ?k (?l :: ?ls)) => refine (reachw_after k l ls _ _ _ _ _ _) end; [|quiet|quiet|vm_compute; exact I|quiet|quiet]). apply reachw_init.
  - split; [intros c; vm_compute; destruct c as [|[|c]]; reflexivity|]. split; [reflexivity|]. split; [exists 8; reflexivity|].
    split; [reflexivity|]. split; [reflexivity|]. eexists. eapply drain_step with (l := LGet 0); [exact I|vm_compute; reflexivity|..].
    + intros c. vm_compute. destruct c as [|[|c]]; reflexivity.
    + quiet.
Qed.

(** * C21 *)
(** A subscriber that holds nothing can leave: the pipeline still drains (C20 applies afterwards). *)
Theorem C21_leaving_with_nothing_held_partial : forall Obj cfg (x : st Obj) s p y, wf cfg -> reachw cfg x ->
  (forall c m, pubof cfg c = p -> ~ holds cfg x s c m) -> step cfg x (LLeave s p) = Some y -> reachw cfg y.
Proof. intros Obj cfg x s p y W. exact (leave_keeps_reachw cfg W x s p y). Qed.

(** The last subscriber of a process takes the channel with it (channelmanager.py:112-129), whatever it holds. *)
Theorem C21_last_leaver_frees_everything_partial : forall Obj cfg (x : st Obj) s p c, wf cfg -> reach cfg x ->
  s_chan (sbs x s) p = Some c -> c_up (chs x c) = true -> between_broadcasts x p ->
  exists y z w, step cfg x (LLeave s p) = Some y /\ step cfg y (LChanDown c) = Some z /\ step cfg z (LPubDown c) = Some w /\
    (forall b, ~ leased (p_bp (pubs w p)) c b) /\
    forall u b, u <> c -> (leased (p_bp (pubs w p)) u b <-> leased (p_bp (pubs x p)) u b).
Proof. intros Obj cfg x s p c W. exact (last_leaver cfg W x s p c). Qed.

Example C21_case : match ex_state with
  | Some x => s_chan (sbs x 0) 0 = Some 2 /\ c_up (chs x 2) = true /\ between_broadcasts x 0 /\ length (s_reading (sbs x 0)) = 2 /\
              map leases (buffers (p_bp (pubs x 0))) = [[2]; [2; 1; 0]]
  | None => False end.
Proof. vm_compute. repeat split. Qed.

(** Finding: when a subscriber holding a message leaves while another subscriber of its process stays, the buffer is
    never given back: nobody holds anything, no consumption step is possible, and the broadcast waits. *)
Theorem C21_leaving_with_unread_message_refuted : exists cfg ls (x : st nat), wf cfg /\ run_ok cfg (init cfg) ls = Some x /\
  (forall s c m, ~ holds cfg x s c m) /\ waits_for_buffer x 0 /\ (forall grow, step cfg x (LProceed 0 grow) = None) /\
  (forall l, consume l -> step cfg x l = None).
Proof.
  exists (ex_cfg 1), [LConnect 1; LJoin 0 1; LJoin 1 1; LBroadcast 0 7 false; LDrained 0; LChanRecv 1; LGet 1; LRelease 1 0; LLeave 0 0; LBroadcast 0 8 false].
  eexists. split; [apply ex_wf; lia|]. split; [vm_compute; reflexivity|]. split.
  - intros s c m [_ H]. revert H. vm_compute. destruct s as [|[|s]]; intros [[]|(r & [] & _)].
  - split; [exists 8; reflexivity|]. split; [reflexivity|].
    intros l Co. destruct l; cbn in Co; try contradiction.
    all: try (destruct p as [|p]; vm_compute; reflexivity). all: try (destruct c as [|[|c]]; vm_compute; reflexivity).
    all: destruct s as [|[|s]]; try (vm_compute; reflexivity); destruct k; vm_compute; reflexivity.
Qed.

(** * C22 *)
(** The process can be lost at any point between broadcasts ... *)
Theorem C22_process_can_be_lost_at_any_time : forall Obj cfg (x : st Obj) c, wf cfg -> reach cfg x -> c_up (chs x c) = true ->
  between_broadcasts x (pubof cfg c) -> exists y z, step cfg x (LChanDown c) = Some y /\ step cfg y (LPubDown c) = Some z.
Proof. intros Obj cfg x c W. exact (crash_anytime cfg W x c). Qed.

(** ... or while it is being written to, without anything being charged to it. *)
Theorem C22_loss_while_sending_is_not_charged : forall Obj cfg (x : st Obj) p o c todo, p_phase (pubs x p) = Draining o c todo ->
  c_up (chs x c) = false ->
  exists y, step cfg x (LDrainFail p) = Some y /\ forall u b, leased (p_bp (pubs y p)) u b <-> leased (p_bp (pubs x p)) u b.
Proof. intros Obj cfg x p o c todo. exact (crash_while_sending cfg x p o c todo). Qed.

(** When the publisher notices, exactly the buffers of that process are given back. *)
Theorem C22_lost_process_gives_back_exactly_its_buffers : forall Obj cfg (x : st Obj) c y, reach cfg x -> step cfg x (LPubDown c) = Some y ->
  (forall u b, leased (p_bp (pubs y (pubof cfg c))) u b <-> leased (p_bp (pubs x (pubof cfg c))) u b /\ u <> c) /\
  (forall p, p <> pubof cfg c -> pubs y p = pubs x p) /\ (forall d, chs y d = chs x d) /\ (forall s, sbs y s = sbs x s) /\
  p_sent (pubs y (pubof cfg c)) = p_sent (pubs x (pubof cfg c)) /\ p_phase (pubs y (pubof cfg c)) = p_phase (pubs x (pubof cfg c)).
Proof. intros Obj cfg x c y. exact (lost_process cfg x c y). Qed.

Theorem C22_loss_leaves_others_alone : forall Obj cfg (x : st Obj) c y, step cfg x (LChanDown c) = Some y ->
  (forall p, pubs y p = pubs x p) /\ (forall d, d <> c -> chs y d = chs x d) /\ (forall s, sbs y s = sbs x s).
Proof. intros Obj cfg x c y. exact (crash_isolated cfg x c y). Qed.

Example C22_case : match ex_state with
  | Some x => match run (ex_cfg 2) x [LChanDown 2; LPubDown 2] with
              | Some y => map leases (buffers (p_bp (pubs x 0))) = [[2]; [2; 1; 0]] /\ map leases (buffers (p_bp (pubs y 0))) = [[]; [1; 0]]
              | None => False end
  | None => False end.
Proof. vm_compute. repeat split. Qed.

(** * C23 *)
Theorem C23_answered_is_not_charged_partial : forall Obj cfg (x : st Obj) p u b, wf cfg -> reachw cfg x -> leased (p_bp (pubs x p)) u b ->
  c_up (chs x u) = true -> exists m, unanswered (chs x u) m /\ slot_of cfg p m = b.
Proof. intros Obj cfg x p u b W R L. exact (proj2 (proj2 (leased_answers cfg W x p u b R L))). Qed.

Example C23_case : exists x : st nat, reachw (ex_cfg 1) x /\ leased (p_bp (pubs x 0)) 1 0 /\ c_up (chs x 1) = true /\ unanswered (chs x 1) 0.
Proof.
  exists (after (ex_cfg 1) [LDrained 0; LBroadcast 0 7 false; LConnect 1]). split.
  - repeat (match goal with |- reachw ?k (after ?k (?l :: ?ls)) => refine (reachw_after k l ls _ _ _ _ _ _) end; [|quiet|quiet|vm_compute; exact I|quiet|quiet]). apply reachw_init.
  - split; [vm_compute; eexists; split; [reflexivity|now left]|]. split; [reflexivity|]. left. vm_compute. now left.
Qed.

(** Finding: if the publisher's wait for [drain] lasts until after the acknowledgement has been handled, the lease is taken after
    it was given back, and stays for ever. *)
Theorem C23_ack_before_lease_refuted : exists cfg ls (x : st nat), wf cfg /\ run_ok cfg (init cfg) ls = Some x /\ c_up (chs x 1) = true /\
  leased (p_bp (pubs x 0)) 1 0 /\ (forall m, ~ unanswered (chs x 1) m) /\ forall l, consume l -> step cfg x l = None.
Proof.
  exists (ex_cfg 1), [LConnect 1; LBroadcast 0 7 false; LChanRecv 1; LAck 1; LDrained 0]. eexists.
  split; [apply ex_wf; lia|]. split; [vm_compute; reflexivity|]. split; [reflexivity|]. split; [vm_compute; eexists; split; [reflexivity|now left]|]. split.
  - intros m. unfold unanswered. cbn. intros [[]|[[]|[[[h H]|[]]|[]]]]. vm_compute in H. destruct m as [|m]; discriminate.
  - intros l Co. destruct l; cbn in Co; try contradiction.
    all: try (destruct p as [|p]; vm_compute; reflexivity). all: try (destruct c as [|[|c]]; vm_compute; reflexivity).
    all: destruct s as [|[|s]]; try (vm_compute; reflexivity); destruct k; vm_compute; reflexivity.
Qed.

Print Assumptions C15_reading_is_never_overwritten_partial.
Print Assumptions C16_every_message_once_in_order_partial.
Print Assumptions C17_every_message_accounted_for.
Print Assumptions C18_at_most_num_buffers_outstanding.
Print Assumptions C19_sync_is_a_barrier_partial.
Print Assumptions C20_consumption_ends_with_every_buffer_free_partial.
Print Assumptions C21_last_leaver_frees_everything_partial.
Print Assumptions C22_lost_process_gives_back_exactly_its_buffers.
Print Assumptions C23_answered_is_not_charged_partial.
