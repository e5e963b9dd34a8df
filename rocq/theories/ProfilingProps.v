(* C40 and C41: profiling snapshots, sampling and trace batches. *)

From Coq Require Import String List Arith Bool Lia.
From Verif Require Import Dict ProfilingModel ProfilingSpec ProfilingProofs.
Import ListNotations.
Local Open Scope string_scope.
Local Open Scope nat_scope.
Local Open Scope list_scope.

(** C40.  A snapshot lists exactly the registered endpoints, each with the number of
    messages it has published or received since it was registered, and the number
    since the previous snapshot (or its registration, if later); the first
    snapshot has no window. *)
Theorem C40_totals_and_windows :
  forall maxlen h now r' pubs subs,
    snapshot now (after maxlen h) = (r', (pubs, subs)) ->
    forall s id,
      get id (match s with Pub => pubs | Sub => subs end) =
      match registered s id h with
      | Some _ => Some (total s id h, if snapshot_taken h then recent s id h else 0)
      | None => None
      end.
Proof.
  intros maxlen h now r' pubs subs E s id. injection E as _ <- <-.
  pose proof (Glob_after maxlen h) as (_ & _ & L). pose proof (InvE_after maxlen s id h) as I.
  unfold InvE in I. rewrite L.
  assert (K : forall d, get id d = match get id (endpoints s (after maxlen h)) with
                                   | Some m => Some (snd (snapshot_metrics (snapshot_taken h) m)) | None => None end ->
          get id d = match registered s id h with
      | Some _ => Some (total s id h, if snapshot_taken h then recent s id h else 0)
      | None => None
      end).
  { intros d ->. destruct (get id (endpoints s (after maxlen h))) as [m|].
    - destruct I as (G1 & G2 & G3 & _). rewrite G1. cbn. rewrite G2. do 2 f_equal.
      destruct (snapshot_taken h); [|reflexivity]. rewrite <- G2. lia.
    - rewrite I. reflexivity. }
  destruct s; apply K; rewrite get_map_values; cbn; destruct (get id _); reflexivity.
Qed.
Print Assumptions C40_totals_and_windows.

(** Two endpoints, a snapshot in the middle. *)
Definition history : list op :=
  [Publish 1 (Some 12) 40; Begin 2; Publish 1 (Some 11) 30; Snapshot 25; Publish 1 (Some 10) 20;
   RegSub 2 "b"; RegPub 1 "a"].

Example C40_case :
  snd (snapshot 50 (after 100 history)) = ([(1, (3, 2))], [(2, (1, 1))]) /\
  total Pub 1 history = 3 /\ recent Pub 1 history = 2 /\ snapshot_taken history = true.
Proof. vm_compute. auto. Qed.

Lemma keep_snoc maxlen xs x : forall q, keep maxlen q (xs ++ [x]) = newest maxlen (keep maxlen q xs ++ [x]).
Proof. induction xs as [|y xs IH]; intros q; cbn; [reflexivity|apply IH]. Qed.

(** C40.  While a control traces a publisher's publish deltas, the publications traced
    are those whose number since the control was set (or the publisher registered) is a
    multiple of the control's rate; the sample holds the time since the
    previous traced publication.  No other publication adds a sample. *)
Theorem C40_publications_traced :
  forall maxlen h id topic seq now,
    registered Pub id h = Some topic ->
    let q := queue Pub id (after maxlen h) in
    let q' := queue Pub id (after maxlen (Publish id seq now :: h)) in
    let sampled := traces (fst (in_force h)) Pub id topic publish_delta_ns /\ S (ordinal Pub id h) mod rate h = 0 in
    (sampled ->
       q' = newest maxlen (q ++ [mkSample now id publish_delta_ns
                                    (match last_traced id h with None => 0 | Some t => now - t end) seq])) /\
    (~ sampled -> q' = q).
Proof.
  intros maxlen h id topic seq now R q q' sampled.
  pose proof (InvE_after maxlen Pub id h) as I. unfold InvE in I.
  destruct (get id (endpoints Pub (after maxlen h))) as [m|] eqn:G; [|congruence].
  destruct I as (G1 & G2 & G3 & G4 & G5 & G6 & G7 & G8).
  assert (topic = m_topic m) by congruence. subst topic.
  assert (Q : q = m_samples m) by (unfold q, queue; rewrite G; reflexivity).
  assert (Q' : q' = m_samples (record_publish maxlen id m seq now)).
  { unfold q', queue. rewrite after_cons. cbn [pstep endpoints set_pubs r_pubs]. cbn [endpoints] in G.
    rewrite get_on. destruct (dec id id); [|congruence]. rewrite G. reflexivity. }
  rewrite Q, Q'. unfold record_publish. cbn [m_one m_count m_mod m_samples m_ts]. cbn [counting] in G7.
  assert (RM : Nat.max 1 (m_mod m) = rate h) by (rewrite G4; unfold rate; lia). rewrite RM.
  unfold sampled. rewrite <- onf_traces, <- (G5 : _ = onf _ _ _ _ publish_delta_ns).
  destruct (m_one m) eqn:E1.
  - rewrite (G7 eq_refl), (G8 eq_refl eq_refl).
    destruct (Nat.eqb_spec (S (ordinal Pub id h) mod rate h) 0) as [Em|Em]; cbn [m_samples]; split.
    + intros _. reflexivity.
    + intros N. exfalso. apply N. auto.
    + intros [_ K]. contradiction.
    + reflexivity.
  - split; [intros [K _]; discriminate|reflexivity].
Qed.
Print Assumptions C40_publications_traced.

Definition every_other : control := mkControl true 2 ["a"] [] [] [] None None.
Definition traced_history : list op :=
  [Publish 1 None 40; Publish 1 None 30; Publish 1 None 20; Control every_other 15; Publish 1 None 10; RegPub 1 "a"].

Example C40_publications_case :
  registered Pub 1 traced_history = Some "a" /\
  traces (fst (in_force traced_history)) Pub 1 "a" publish_delta_ns /\
  S (ordinal Pub 1 traced_history) mod rate traced_history = 0 /\
  queue Pub 1 (after 100 (Publish 1 None 50 :: traced_history)) =
    [mkSample 30 1 publish_delta_ns 0 None; mkSample 50 1 publish_delta_ns 20 None].
Proof.
  split; [reflexivity|]. split; [|vm_compute; auto].
  split; [reflexivity|]. cbn. split; [auto|]. split; [auto|]. discriminate.
Qed.

(** C40.  Every wait for backpressure of a publisher whose waits are traced adds a sample with the
    wait; no other wait does. *)
Theorem C40_waits_traced :
  forall maxlen h id topic wait seq now,
    registered Pub id h = Some topic ->
    let q := queue Pub id (after maxlen h) in
    let q' := queue Pub id (after maxlen (Wait id wait seq now :: h)) in
    let traced := traces (fst (in_force h)) Pub id topic backpressure_wait_ns in
    (traced -> q' = newest maxlen (q ++ [mkSample now id backpressure_wait_ns wait seq])) /\ (~ traced -> q' = q).
Proof.
  intros maxlen h id topic wait seq now R q q' traced.
  pose proof (InvE_after maxlen Pub id h) as I. unfold InvE in I.
  destruct (get id (endpoints Pub (after maxlen h))) as [m|] eqn:G; [|congruence].
  destruct I as (G1 & G2 & G3 & G4 & G5 & G6 & G7 & G8).
  assert (topic = m_topic m) by congruence. subst topic.
  assert (Q : q = m_samples m) by (unfold q, queue; rewrite G; reflexivity).
  assert (Q' : q' = m_samples (record_backpressure_wait maxlen id m wait seq now)).
  { unfold q', queue. rewrite after_cons. cbn [pstep endpoints set_pubs r_pubs]. cbn [endpoints] in G.
    rewrite get_on. destruct (dec id id); [|congruence]. rewrite G. reflexivity. }
  rewrite Q, Q'. unfold record_backpressure_wait, traced. rewrite <- onf_traces, <- (G6 : _ = onf _ _ _ _ backpressure_wait_ns).
  destruct (m_two m); split; intros K; try reflexivity; [congruence|discriminate].
Qed.
Print Assumptions C40_waits_traced.

Example C40_waits_case :
  registered Pub 1 traced_history = Some "a" /\
  traces (fst (in_force traced_history)) Pub 1 "a" backpressure_wait_ns /\
  queue Pub 1 (after 100 (Wait 1 5 None 45 :: traced_history)) =
    [mkSample 30 1 publish_delta_ns 0 None; mkSample 45 1 backpressure_wait_ns 5 None].
Proof.
  split; [reflexivity|]. split; [|vm_compute; auto].
  split; [reflexivity|]. cbn. split; [auto|]. split; [auto|]. discriminate.
Qed.

(** C40.  Of any k consecutive publications, sampling at rate n traces one of every n. *)
Theorem C40_one_of_every_n :
  forall maxlen h later id topic,
    registered Pub id h = Some topic ->
    traces (fst (in_force h)) Pub id topic publish_delta_ns ->
    (forall o, In o later -> quiet id o = true) ->
    exists xs,
      queue Pub id (after maxlen (later ++ h)) = keep maxlen (queue Pub id (after maxlen h)) xs /\
      length xs = (ordinal Pub id h + publications id later) / rate h - ordinal Pub id h / rate h /\
      (forall x, In x xs -> s_endpoint x = id /\ s_metric x = publish_delta_ns).
Proof.
  intros maxlen h later id topic R T Q.
  assert (K : registered Pub id (later ++ h) = Some topic /\ in_force (later ++ h) = in_force h /\
              ordinal Pub id (later ++ h) = ordinal Pub id h + publications id later /\
              exists xs,
      queue Pub id (after maxlen (later ++ h)) = keep maxlen (queue Pub id (after maxlen h)) xs /\
      length xs + ordinal Pub id h / rate h = (ordinal Pub id h + publications id later) / rate h /\
      (forall x, In x xs -> s_endpoint x = id /\ s_metric x = publish_delta_ns)).
  { induction later as [|o later IH].
    - cbn. rewrite Nat.add_0_r. split; [exact R|]. split; [reflexivity|]. split; [reflexivity|].
      exists []. split; [reflexivity|]. split; [reflexivity|]. intros x [].
    - destruct IH as (IR & IF & IO & xs & X1 & X2 & X3); [intros o' Io; apply Q; right; exact Io|].
      specialize (Q o (or_introl eq_refl)).
      assert (Rt : rate (later ++ h) = rate h) by (unfold rate; rewrite IF; reflexivity).
      destruct (is_event Pub id o) eqn:Ev.
      + destruct o; cbn in Ev; try discriminate. apply Nat.eqb_eq in Ev. subst id0.
        split; [cbn; exact IR|]. split; [cbn; exact IF|].
        split; [cbn; rewrite Nat.eqb_refl, IO; lia|].
        assert (P : publications id (Publish id seq now :: later) = S (publications id later)) by (cbn; rewrite Nat.eqb_refl; reflexivity).
        rewrite P. cbn [app].
        destruct (C40_publications_traced maxlen (later ++ h) id topic seq now IR) as [C1 C2].
        rewrite IF, Rt, IO in C1, C2.
        set (k := ordinal Pub id h + publications id later) in *.
        replace (ordinal Pub id h + S (publications id later)) with (S k) by (unfold k; lia).
        assert (N0 : rate h <> 0) by (unfold rate; lia).
        pose proof (Nat.div_mod k (rate h) N0) as D1. pose proof (Nat.div_mod (S k) (rate h) N0) as D2.
        pose proof (Nat.mod_upper_bound k (rate h) N0) as B1. pose proof (Nat.mod_upper_bound (S k) (rate h) N0) as B2.
        destruct (Nat.eq_dec (S k mod rate h) 0) as [Z|Z].
        * rewrite C1 by auto. eexists (xs ++ [_]). split; [|split].
          -- rewrite keep_snoc, <- X1. reflexivity.
          -- rewrite app_length. cbn [length].
             assert (S k / rate h = S (k / rate h)); [|lia].
             assert (rate h * (S k / rate h) = S k) by lia.
             nia.
          -- intros x I. apply in_app_or in I. destruct I as [I|[<-|[]]]; auto.
        * rewrite C2 by (intros [_ K]; contradiction). exists xs. split; [exact X1|]. split; [|exact X3].
          rewrite X2. nia.
      + assert (Rg : registers Pub id o = None) by (destruct o; auto; cbn in *; destruct (Nat.eqb_spec id0 id); [discriminate|reflexivity]).
        assert (Rm : removes Pub id o = false) by (destruct o; auto; cbn in *; try (destruct (Nat.eqb_spec id0 id); [discriminate|reflexivity]); discriminate).
        assert (F : in_force (o :: later ++ h) = in_force (later ++ h)) by (destruct o; try reflexivity; discriminate).
        assert (Rs : restarts Pub id (later ++ h) o = false) by (unfold restarts; rewrite Rg; destruct o; try reflexivity; discriminate).
        cbn [app]. split; [cbn [registered]; rewrite Rg, Rm; exact IR|]. split; [congruence|].
        assert (P : publications id (o :: later) = publications id later) by (cbn [publications]; rewrite Ev; reflexivity).
        split; [cbn [ordinal]; rewrite Rs, Ev, P, IO; reflexivity|].
        exists xs. rewrite P. split; [|auto]. rewrite <- X1.
        unfold queue. rewrite after_cons. set (r := after maxlen (later ++ h)).
        destruct o; cbn [pstep]; try reflexivity; try discriminate; cbn [endpoints set_pubs r_pubs].
        * rewrite get_put. cbn in Q. destruct (dec id id0) as [<-|]; [rewrite Nat.eqb_refl in Q; discriminate|reflexivity].
        * rewrite get_del. cbn in Q. destruct (dec id id0) as [<-|]; [rewrite Nat.eqb_refl in Q; discriminate|reflexivity].
        * rewrite get_on. cbn in Ev. destruct (dec id id0) as [<-|]; [rewrite Nat.eqb_refl in Ev; discriminate|reflexivity].
        * rewrite get_on. cbn in Q. destruct (dec id id0) as [<-|]; [rewrite Nat.eqb_refl in Q; discriminate|reflexivity].
        * cbn [snapshot fst r_pubs]. rewrite get_map_values. destruct (get id (r_pubs r)); reflexivity. }
  destruct K as (_ & _ & _ & xs & X1 & X2 & X3). exists xs. split; [exact X1|]. split; [lia|exact X3].
Qed.
Print Assumptions C40_one_of_every_n.

Example C40_one_of_every_n_case :
  let later := [Publish 1 None 80; Begin 2; Publish 1 None 70; Publish 1 None 60; Publish 1 None 50] in
  (forall o, In o later -> quiet 1 o = true) /\
  (ordinal Pub 1 traced_history + publications 1 later) / rate traced_history - ordinal Pub 1 traced_history / rate traced_history = 2.
Proof.
  split; [|vm_compute; reflexivity]. intros o H. repeat (destruct H as [<-|H]; [reflexivity|]). destruct H.
Qed.

(** C40.  Receptions: the message received is sampled exactly if the subscriber's lease
    time or user span is traced and its number is a multiple of the rate; then, and
    only then, each traced metric of it adds a sample. *)
Theorem C40_receptions_traced :
  forall maxlen h id topic m lease seq now,
    registered Sub id h = Some topic ->
    get id (r_subs (after maxlen h)) = Some m ->
    let sampled := snd (begin_message m) in
    let q := queue Sub id (after maxlen h) in
    let leased := queue Sub id (after maxlen (Lease id (Some lease) seq sampled now :: Begin id :: h)) in
    let spanned := queue Sub id (after maxlen (Span id lease seq sampled now :: Begin id :: h)) in
    let due := S (ordinal Sub id h) mod rate h = 0 in
    let t := traces (fst (in_force h)) Sub id topic in
    (sampled = true <-> (t lease_time_ns \/ t user_span_ns) /\ due) /\
    (t lease_time_ns /\ due -> leased = newest maxlen (q ++ [mkSample now id lease_time_ns lease seq])) /\
    (~ (t lease_time_ns /\ due) -> leased = q) /\
    (t user_span_ns /\ due -> spanned = newest maxlen (q ++ [mkSample now id user_span_ns lease seq])) /\
    (~ (t user_span_ns /\ due) -> spanned = q).
Proof.
  intros maxlen h id topic m lease seq now R G sampled q leased spanned due t.
  pose proof (InvE_after maxlen Sub id h) as I. unfold InvE in I. cbn [endpoints] in I. rewrite G in I.
  destruct I as (G1 & G2 & G3 & G4 & G5 & G6 & G7 & G8).
  assert (topic = m_topic m) by congruence. subst topic.
  assert (Q : q = m_samples m) by (unfold q, queue; cbn [endpoints]; rewrite G; reflexivity).
  assert (RM : Nat.max 1 (m_mod m) = rate h) by (rewrite G4; unfold rate; lia).
  cbn [counting name1 name2] in *.
  assert (T1 : t lease_time_ns <-> m_one m = true) by (unfold t; rewrite <- onf_traces, <- G5; tauto).
  assert (T2 : t user_span_ns <-> m_two m = true) by (unfold t; rewrite <- onf_traces, <- G6; tauto).
  assert (SM : sampled = (m_one m || m_two m) && (S (ordinal Sub id h) mod rate h =? 0)).
  { unfold sampled, begin_message. cbn [m_one m_two m_count m_mod]. destruct (m_one m || m_two m) eqn:E; cbn [snd m_count m_mod].
    - rewrite RM, G7; reflexivity.
    - reflexivity. }
  assert (B1 : forall m', m' = fst (begin_message m) -> m_one m' = m_one m /\ m_two m' = m_two m /\ m_samples m' = m_samples m).
  { intros m' ->. unfold begin_message. cbn [m_one m_two]. destruct (m_one m || m_two m); cbn; auto. }
  destruct (B1 _ eq_refl) as (B2 & B3 & B4).
  assert (L : leased = m_samples (record_lease_time maxlen id (fst (begin_message m)) (Some lease) seq sampled now)).
  { unfold leased, queue. rewrite !after_cons. cbn [pstep endpoints set_subs r_subs]. rewrite !get_on.
    destruct (dec id id); [|congruence]. rewrite G. reflexivity. }
  assert (P : spanned = m_samples (record_user_span maxlen id (fst (begin_message m)) lease seq sampled now)).
  { unfold spanned, queue. rewrite !after_cons. cbn [pstep endpoints set_subs r_subs]. rewrite !get_on.
    destruct (dec id id); [|congruence]. rewrite G. reflexivity. }
  unfold record_lease_time, record_user_span in L, P. rewrite B2 in L. rewrite B3 in P.
  assert (L' : leased = if m_one m && sampled then newest maxlen (q ++ [mkSample now id lease_time_ns lease seq]) else q).
  { rewrite L. rewrite Q. destruct (m_one m && sampled); cbn [m_samples]; rewrite B4; reflexivity. }
  assert (P' : spanned = if m_two m && sampled then newest maxlen (q ++ [mkSample now id user_span_ns lease seq]) else q).
  { rewrite P. rewrite Q. destruct (m_two m && sampled); cbn [m_samples]; rewrite B4; reflexivity. }
  rewrite L', P', T1, T2, SM. unfold due.
  destruct (Nat.eqb_spec (S (ordinal Sub id h) mod rate h) 0) as [Z|Z]; rewrite ?andb_true_r, ?andb_false_r.
  - destruct (m_one m), (m_two m); cbn; intuition congruence.
  - destruct (m_one m), (m_two m); cbn; intuition congruence.
Qed.
Print Assumptions C40_receptions_traced.

Definition sub_history : list op :=
  [Begin 2; Control (mkControl true 2 [] ["b"] [] [] (Some [lease_time_ns]) None) 15; RegSub 2 "b"].

Example C40_receptions_case :
  exists m, get 2 (r_subs (after 100 sub_history)) = Some m /\ snd (begin_message m) = true /\
    queue Sub 2 (after 100 (Lease 2 (Some 7) None true 20 :: Begin 2 :: sub_history)) = [mkSample 20 2 lease_time_ns 7 None] /\
    queue Sub 2 (after 100 (Span 2 7 None true 20 :: Begin 2 :: sub_history)) = [].
Proof. eexists. vm_compute. auto. Qed.

(** C41.  A batch of at most n samples (at least one) takes as many as there are, up to
    n; each endpoint's buffer was what the batch holds of that endpoint, in the
    same order, followed by what is left in it. *)
Theorem C41_batch_removes_what_it_returns :
  forall maxlen h n now r' out,
    expired (snd (in_force h)) now = false ->
    trace_batch n now (after maxlen h) = (r', out) ->
    length out = Nat.min (Nat.max 1 n) (length (buffered (after maxlen h))) /\
    forall s id, queue s id (after maxlen h) = filter (sample_of s id) out ++ queue s id r'.
Proof.
  intros maxlen h n now r' out X E.
  assert (Ex : expire now (after maxlen h) = after maxlen h).
  { unfold expire. destruct (Glob_after maxlen h) as (_ & -> & _). unfold expired in X.
    destruct (snd (in_force h)) as [t|]; [|reflexivity]. apply Nat.leb_gt in X.
    destruct (Nat.ltb_spec now t); [reflexivity|lia]. }
  destruct (trace_batch_shape _ _ _ _ _ E) as (_ & _ & L & _). rewrite Ex in L. split; [exact L|].
  intros s id. rewrite <- Ex at 1. eapply batch_split; [apply Keys_after|apply tags_after|exact E].
Qed.
Print Assumptions C41_batch_removes_what_it_returns.

(** C41.  With a clock that never goes back, the batch is in time order and everything in
    it is at least as early as everything left behind. *)
Theorem C41_batch_takes_the_earliest :
  forall maxlen h n now r' out,
    monotone h now ->
    trace_batch n now (after maxlen h) = (r', out) ->
    in_time_order out /\
    (forall x y, In x out -> In y (buffered r') -> s_time x <= s_time y).
Proof.
  intros maxlen h n now r' out M E. eapply batch_earliest; [apply Keys_after|apply times_after; exact M|exact E].
Qed.
Print Assumptions C41_batch_takes_the_earliest.

(** C41.  If the control has expired, the batch is empty, and so are the buffers. *)
Theorem C41_expired_control_leaves_nothing :
  forall maxlen h n now r' out,
    expired (snd (in_force h)) now = true ->
    trace_batch n now (after maxlen h) = (r', out) ->
    out = [] /\ forall s id, queue s id r' = [].
Proof.
  intros maxlen h n now r' out X E.
  assert (Ex : exists r0, expire now (after maxlen h) = set_trace_control disabled now r0).
  { exists (after maxlen h). unfold expire. destruct (Glob_after maxlen h) as (_ & -> & _). unfold expired in X.
    destruct (snd (in_force h)) as [t|]; [|discriminate]. apply Nat.leb_le in X.
    destruct (Nat.ltb_spec now t); [lia|reflexivity]. }
  destruct Ex as [r0 Ex].
  assert (B : buffered (expire now (after maxlen h)) = []).
  { rewrite Ex. unfold buffered, set_trace_control, map_values. cbn [r_pubs r_subs].
    rewrite !flat_map_concat_map, !map_map.
    induction (r_pubs r0); cbn; [|assumption]. induction (r_subs r0); cbn; auto. }
  destruct (trace_batch_shape _ _ _ _ _ E) as (qs' & T & L & _). rewrite B in L. cbn in L. rewrite Nat.min_0_r in L.
  assert (O : out = []) by (destruct out; [reflexivity|discriminate]). split; [exact O|].
  intros s id.
  pose proof (batch_split _ _ _ _ _ s id (Keys_after maxlen h) (tags_after maxlen h) E) as S.
  rewrite O in S. cbn in S. rewrite <- S. rewrite Ex. unfold queue.
  destruct s; cbn [set_trace_control endpoints r_pubs r_subs]; rewrite get_map_values; destruct (get id _); reflexivity.
Qed.
Print Assumptions C41_expired_control_leaves_nothing.

(** Three buffers, five samples, a batch of three. *)
Definition busy_history : list op :=
  [Wait 1 5 None 60; Lease 2 (Some 3) (Some 9) true 50; Publish 3 None 40; Publish 1 None 30; Publish 3 None 20;
   Control (mkControl true 1 [] [] [] [] None None) 10; RegPub 3 "c"; RegSub 2 "b"; RegPub 1 "a"].

Example C41_case :
  monotone busy_history 70 /\ expired (snd (in_force busy_history)) 70 = false /\
  map s_time (snd (trace_batch 3 70 (after 100 busy_history))) = [20; 30; 40] /\
  map s_time (buffered (fst (trace_batch 3 70 (after 100 busy_history)))) = [60; 50] /\
  length (buffered (after 100 busy_history)) = 5.
Proof. vm_compute. repeat split; repeat constructor. Qed.

Example C41_expired_case :
  expired (snd (in_force [Publish 1 None 12; Control (mkControl true 1 [] [] [] [] None (Some 5)) 10; RegPub 1 "a"])) 15 = true.
Proof. reflexivity. Qed.
