(** C78: a subscription to the settings or topology events delivers, in order and without gaps, what
    the server has logged, and leaves nothing behind when it ends. *)
From Coq Require Import List NArith Arith Bool Lia.
From Coq Require Import Strings.Byte.
From Verif Require Import Dict CodecModel StreamModel EventLogModel EventLogSpec EventLogProofs
  EventStreamModel EventStreamSpec EventStreamProofs.
Import ListNotations.

Section C78.
Context {A V : Type}.
(** The Python object of an event of a log, and pickle. *)
Variable of_event : which -> event A -> V.
Variable is_event : which -> V -> bool.
Variable dumps : which -> event A -> bytes.
Variable loads : bytes -> option V.
Hypothesis pickle_ok : forall k e, loads (dumps k e) = Some (of_event k e).
Hypothesis type_ok : forall k e, is_event k (of_event k e) = true.
(** str and int *)
Variable text : nat -> pystr.
Variable int_of : pystr -> option nat.
Hypothesis int_ok : forall n, int_of (text n) = Some n.
(** the identifier of the subscriber, and its text *)
Variable me : nat.
Variable uuid : pystr.
Variable uuid_ok : pystr -> bool.
Hypothesis id_ok : uuid_ok uuid = true.
Variable ans : bytes.
Hypothesis ans_ok : answer uuid = Some ans.
(** the subscription: which events, from which number on *)
Variables (asked : which) (after : nat) (req : bytes).
Hypothesis req_ok : request text asked after = Some req.
(** the history of the log up to now *)
Variables (limit : nat) (before : list (log_op A)) (logs0 : which -> log A).
Hypothesis logs0_ok : logs0 asked = after_ops limit before.
Hypothesis fresh : forall op, In op before -> others A me op = true.

Notation step := (step A V is_event dumps loads int_of uuid uuid_ok me asked).
Notation steps := (steps A V is_event dumps loads int_of uuid uuid_ok me asked).
Notation start := (start A V logs0 req).
Notation fits e := (N.of_nat (length (dumps asked e)) < 2 ^ 64)%N.

Let run_inv := Inv_run of_event is_event dumps loads text int_of uuid uuid_ok me pickle_ok type_ok int_ok id_ok
                       asked after req ans req_ok ans_ok limit before logs0 logs0_ok fresh.

(** C78: whatever happens, what the consumer has got are events of the log it asked for, in the order
    of their numbers, none twice; and, if the number it gave is not in the future, only later ones. *)
Theorem C78_in_order : forall hs w, steps start hs = Some w ->
  exists l, yielded A V w = map (of_event asked) l /\ increasing l /\
    forall e, In e l -> In e (numbered (appended before ++ added asked hs)) /\
                        (after <= length (appended before) -> after < fst e).
Proof.
  intros hs w H. destruct (i_pipe _ _ _ _ _ _ _ _ _ _ _ (run_inv hs w H)) as (a & out & lost & P1 & P2 & _ & _ & _ & P6).
  assert (X : exists o1 o2, out = o1 ++ o2 /\ yielded A V w = map (of_event asked) o1).
  { destruct (cli A V w).
    - destruct P6 as [P6 _]. exists [], out. auto.
    - destruct P6 as (o1 & o2 & O1 & O2 & _). eauto.
    - destruct P6 as (o1 & o2 & O1 & O2). eauto. }
  destruct X as (o1 & o2 & -> & Y). exists o1. split; [assumption|].
  split; [now apply increasing_app in P1 as [P1 _]|].
  intros e I. destruct (P2 e) as (I1 & _ & I2); [apply in_app_iff; auto|]. split; assumption.
Qed.

(** C78: as long as the consumer stays, the connection holds and there is room in its queue, the
    consumer has got exactly what it is owed, whenever the system has come to rest. *)
Theorem C78_exactly_what_is_owed : forall hs1 hs2 w,
  steps start (hs1 ++ ServerRegisters A :: hs2) = Some w ->
  (forall h, In h (hs1 ++ ServerRegisters A :: hs2) -> undisturbed h) ->
  at_rest step w ->
  (forall e, In e (numbered (appended before ++ added asked (hs1 ++ ServerRegisters A :: hs2))) -> fits e) ->
  (forall p a q w1, hs2 = p ++ Log A asked (Append a) :: q ->
     steps start (hs1 ++ ServerRegisters A :: p) = Some w1 ->
     length (waiting (logs A V w1 asked) me) < 1024) ->
  yielded A V w = map (of_event asked)
    (owed limit after (appended before ++ added asked hs1) (added asked hs2)).
Proof.
  intros hs1 hs2 w H Ca Re Sz Up.
  rewrite (all_owed of_event is_event dumps loads text int_of uuid uuid_ok me pickle_ok type_ok int_ok id_ok
            asked after req ans req_ok ans_ok limit before logs0 logs0_ok fresh hs1 hs2 w H Ca Re).
  - unfold due, owed. rewrite !appended_app, !appended_hist. reflexivity.
  - intros e I. specialize (Sz e I). unfold write_event.
    destruct (uint64_to_bytes _) eqn:U; [discriminate|]. apply CodecProofs.uint64_some in Sz as [b Sz]. congruence.
  - exact Up.
Qed.

(** C78: in particular, if the log still holds everything after the given number, the consumer gets
    all of it, without a gap. *)
Theorem C78_nothing_missing : forall hs1 hs2 w,
  steps start (hs1 ++ ServerRegisters A :: hs2) = Some w ->
  (forall h, In h (hs1 ++ ServerRegisters A :: hs2) -> undisturbed h) ->
  at_rest step w ->
  (forall e, In e (numbered (appended before ++ added asked (hs1 ++ ServerRegisters A :: hs2))) -> fits e) ->
  (forall p a q w1, hs2 = p ++ Log A asked (Append a) :: q ->
     steps start (hs1 ++ ServerRegisters A :: p) = Some w1 ->
     length (waiting (logs A V w1 asked) me) < 1024) ->
  after <= length (appended before ++ added asked hs1) <= after + Nat.min limit 1024 ->
  yielded A V w = map (of_event asked)
    (skipn after (numbered (appended before ++ added asked (hs1 ++ ServerRegisters A :: hs2)))).
Proof.
  intros hs1 hs2 w H Ca Re Sz Up Le. rewrite (C78_exactly_what_is_owed hs1 hs2 w H Ca Re Sz Up). f_equal.
  rewrite added_app, app_assoc. change (added asked (ServerRegisters A :: hs2)) with (added (A := A) asked hs2).
  generalize dependent (appended before ++ added asked hs1). intros old Le.
  unfold owed. generalize (added asked hs2). intros new.
  assert (E1 : lastn limit (numbered old) = skipn (length old - limit) (numbered old))
    by (unfold lastn; now rewrite numbered_length).
  rewrite E1, filter_skipn_le by lia.
  unfold lastn. rewrite skipn_length, numbered_length. replace (length old - after - 1024) with 0 by lia.
  cbn [skipn].
  rewrite <- (firstn_skipn (length old - after) (skipn after (numbered (old ++ new)))).
  rewrite skipn_skipn'. replace (after + (length old - after)) with (length old) by lia. f_equal.
  clear -Le. induction new as [|a new IH] using rev_ind.
  - rewrite app_nil_r, firstn_all2; [reflexivity|]. rewrite skipn_length, numbered_length. lia.
  - rewrite app_assoc, numbered_snoc, skipn_app, firstn_app.
    rewrite IH. rewrite skipn_length, numbered_length, app_length.
    replace (length old - after - (length old + length new - after)) with 0 by lia.
    now rewrite app_nil_r.
Qed.

(** C78: when the connection ends, the consumer still gets everything the server had sent, and the
    iteration ends without an error.  (The server had registered it; what is under way arrives.) *)
Theorem C78_all_sent_before_the_end : forall hs1 n hs2 w1 w2,
  steps start hs1 = Some w1 -> srv A V w1 = Serving asked true -> (forall h, cli A V w1 <> Over h) ->
  length (down A V w1) <= n ->
  steps w1 (Cut A n :: hs2) = Some w2 -> ~ In (ClientLeaves A) hs2 -> ~ In (Reset A) hs2 ->
  at_rest step w2 ->
  cli A V w2 = Over Returned /\
  yielded A V w2 = map (of_event asked) (written (logs A V w1 asked) me).
Proof.
  intros hs1 n hs2 w1 w2 H1 Sr No Le H2 N1 N2 Re.
  exact (cut_delivers of_event is_event dumps loads text int_of uuid uuid_ok me pickle_ok type_ok int_ok id_ok
            asked after req ans req_ok ans_ok limit before logs0 logs0_ok fresh hs1 n hs2 w1 w2 true
            H1 Sr eq_refl No Le H2 N1 N2 Re).
Qed.

(** C78: once it has been accepted, a subscription raises nothing, unless the connection is reset; and
    if the connection has ended, in whatever place, so does the iteration. *)
Theorem C78_ends_without_error : forall hs1 hs2 w1 w2,
  steps start hs1 = Some w1 -> cli A V w1 = Listening ->
  steps w1 hs2 = Some w2 -> ~ In (ClientLeaves A) hs2 -> ~ In (Reset A) hs2 ->
  (cli A V w2 = Listening \/ cli A V w2 = Over Returned) /\
  (down_end A V w2 = true -> at_rest step w2 -> cli A V w2 = Over Returned).
Proof.
  intros hs1 hs2 w1 w2 H1 Cl H2 N1 N2. pose proof (run_inv hs1 w1 H1) as I1.
  assert (X : cli A V w2 = Listening \/ cli A V w2 = Over Returned).
  { eapply listening_steps; eauto. }
  split; [assumption|]. intros De Re.
  assert (I2 : EventStreamProofs.Inv of_event dumps me asked after req ans limit before (hs1 ++ hs2) w2).
  { eapply Inv_from; eauto. }
  assert (Y : exists h, cli A V w2 = Over h) by (eapply rest_cli; eauto). destruct Y as [h Hh]. destruct X as [X|X]; congruence.
Qed.

(** C78: once a subscription has been accepted, its connection is closed when it is over, whichever
    way it ended. *)
Theorem C78_closes : forall hs1 hs2 w1 w2 h,
  steps start hs1 = Some w1 -> cli A V w1 = Listening -> steps w1 hs2 = Some w2 -> cli A V w2 = Over h ->
  closed A V w2 = true.
Proof.
  intros hs1 hs2 w1 w2 h H1 Cl H2 Ov. pose proof (run_inv hs1 w1 H1) as I1.
  assert (X : open (A := A) (V := V) w2) by (eapply open_steps; eauto; now left).
  destruct X as [X|(h' & _ & X)]; [congruence|assumption].
Qed.

(** C78: and then the server forgets the subscriber. *)
Theorem C78_forgotten : forall hs w, steps start hs = Some w -> closed A V w = true -> at_rest step w ->
  get me (l_subs (logs A V w asked)) = None.
Proof.
  intros hs w H Cd Re. pose proof (run_inv hs w H) as I.
  destruct (i_closed _ _ _ _ _ _ _ _ _ _ _ I Cd) as [Ue _].
  pose proof (i_srv _ _ _ _ _ _ _ _ _ _ _ I) as S.
  assert (X := I). eapply rest_srv in X; eauto. destruct X as [(s & _ & X)|[X|[X _]]]; [congruence|..]; now rewrite X in S.
Qed.

(** C78: left to itself the system comes to rest. *)
Theorem C78_comes_to_rest : forall hs w, steps start hs = Some w ->
  exists bound, forall hs2 w2, (forall h, In h hs2 -> internal h = true) -> steps w hs2 = Some w2 -> length hs2 <= bound.
Proof.
  intros hs w H. pose proof (run_inv hs w H) as I.
  exists (work (V := V) dumps me asked after ans w). intros hs2 w2 F H2.
  assert (X : length hs2 + work (V := V) dumps me asked after ans w2 <= work (V := V) dumps me asked after ans w)
    by (eapply work_steps; eauto).
  lia.
Qed.

End C78.

(** *** A concrete server: numbers as contents, a simple pickle, numbers written as tally marks. *)

Definition toy_dumps (k : which) (e : event nat) : bytes :=
  match k with Settings => x53 | Topology => x54 end
    :: repeat x01 (fst e) ++ x00 :: repeat x01 (snd e).

Fixpoint ones (b : bytes) : nat * bytes :=
  match b with
  | x01 :: r => let (n, t) := ones r in (S n, t)
  | _ => (0, b)
  end.

Definition toy_loads (b : bytes) : option (which * event nat) :=
  match b with
  | k :: r => let (n, t) := ones r in
              let (a, _) := ones (tl t) in
              match k with
              | x53 => Some (Settings, (n, a))
              | x54 => Some (Topology, (n, a))
              | _ => None
              end
  | [] => None
  end.

Definition toy_is (k : which) (v : which * event nat) : bool := if dec k (fst v) then true else false.
Definition toy_text (n : nat) : pystr := repeat 49%N n.
Definition toy_int (s : pystr) : option nat := Some (length s).
Definition toy_uuid : pystr := [100; 48]%N.
Definition toy_uuid_ok (s : pystr) : bool := (length s =? 2)%nat.

Lemma ones_repeat n b : (forall r, b <> x01 :: r) -> ones (repeat x01 n ++ b) = (n, b).
Proof.
  intros N. induction n as [|n IH]; cbn [repeat app].
  - destruct b as [|c r]; [reflexivity|]. destruct c; try reflexivity. exfalso. now apply (N r).
  - cbn [ones]. now rewrite IH.
Qed.

Lemma toy_pickle k e : toy_loads (toy_dumps k e) = Some (k, e).
Proof.
  destruct e as [n a]. unfold toy_loads, toy_dumps. cbn [fst snd].
  rewrite ones_repeat by discriminate. cbn [tl].
  rewrite <- (app_nil_r (repeat _ a)), ones_repeat by discriminate. now destruct k.
Qed.

Lemma toy_type k (e : event nat) : toy_is k (k, e) = true.
Proof. unfold toy_is. cbn. now destruct k. Qed.

Lemma toy_int_ok n : toy_int (toy_text n) = Some n.
Proof. unfold toy_int, toy_text. now rewrite repeat_length. Qed.

Definition no_bytes (o : option bytes) : bytes := match o with Some b => b | None => [] end.

Notation toy_step := (step nat (which * event nat) toy_is toy_dumps toy_loads toy_int toy_uuid toy_uuid_ok 7 Settings).
Notation toy_steps := (steps nat (which * event nat) toy_is toy_dumps toy_loads toy_int toy_uuid toy_uuid_ok 7 Settings).

Definition toy_start (after : nat) (before : list (log_op nat)) :=
  start nat (which * event nat) (fun k => match k with Settings => after_ops 3 before | Topology => new_log 3 end)
        (no_bytes (request toy_text Settings after)).

Definition toy_before : list (log_op nat) := [Append 5; Append 6].
Definition toy_run : list (happening nat) :=
  [ArriveUp nat 3; ArriveUp nat 7; Log nat Settings (Append 4); ServerReads nat; ServerRegisters nat;
   ArriveDown nat 4; Log nat Topology (Append 9); ServerSends nat; ArriveDown nat 9; ClientReads nat;
   Log nat Settings (Append 3); ArriveDown nat 16; ClientReads nat; ServerSends nat; ServerSends nat;
   ArriveDown nat 34; ClientReads nat; ClientReads nat].

Example C78_case :
  exists w, toy_steps (toy_start 1 toy_before) toy_run = Some w /\ at_rest toy_step w /\
    (forall h, In h toy_run -> undisturbed h) /\
    yielded nat (which * event nat) w = [(Settings, (2, 6)); (Settings, (3, 4)); (Settings, (4, 3))] /\
  exists w2, toy_steps w [Log nat Settings (Append 1); ServerSends nat; Cut nat 10; ArriveDown nat 10; ClientReads nat]
             = Some w2 /\
    cli nat (which * event nat) w2 = Over Returned /\ closed nat (which * event nat) w2 = true /\
    yielded nat (which * event nat) w2 = [(Settings, (2, 6)); (Settings, (3, 4)); (Settings, (4, 3))].
Proof.
  eexists. split; [vm_compute; reflexivity|]. split.
  { intros h Ih. destruct h as [k op|n|n| | | | | | |n|]; try discriminate; try reflexivity; destruct n; reflexivity. }
  split.
  { intros h I. repeat (destruct I as [<-|I]; [exact Logic.I|]). destruct I. }
  split; [reflexivity|]. eexists. split; [vm_compute; reflexivity|]. auto.
Qed.

(** C78 finding: a subscription that is cancelled before the server's answer has come (a time-out
    around the first [anext()], say) never closes its connection, since the answer is awaited outside
    the [try] block.  The server registers the subscriber all the same, goes on queueing events for it
    and sending them to it, and keeps it for as long as the connection holds. *)
Theorem C78_cancelled_subscription_stays_refuted :
  exists hs w, toy_steps (toy_start 1 toy_before) hs = Some w /\ at_rest toy_step w /\
    cli nat (which * event nat) w = Over Left /\ closed nat (which * event nat) w = false /\
    forall hs2 w2, (forall n, ~ In (Cut nat n) hs2) -> toy_steps w hs2 = Some w2 ->
      get 7 (l_subs (logs nat (which * event nat) w2 Settings)) <> None.
Proof.
  exists [ArriveUp nat 10; ClientLeaves nat; ServerReads nat; ServerRegisters nat; ServerSends nat; ArriveDown nat 29].
  eexists. split; [vm_compute; reflexivity|]. split.
  { intros h Ih. destruct h as [k op|n|n| | | | | | |n|]; try discriminate; try reflexivity; destruct n; reflexivity. }
  split; [reflexivity|]. split; [reflexivity|].
  match goal with |- forall hs2 w2, _ -> toy_steps ?w0 hs2 = _ -> _ =>
    assert (St : exists s, srv nat (which * event nat) w0 = Serving Settings s) by (eexists; reflexivity);
    assert (Ov : exists h, cli nat (which * event nat) w0 = Over h) by (eexists; reflexivity);
    assert (Ue : up_end nat (which * event nat) w0 = false) by reflexivity;
    assert (G : get 7 (l_subs (logs nat (which * event nat) w0 Settings)) <> None) by discriminate;
    generalize dependent w0 end.
  intros w St Ov Ue G hs2. revert w St Ov Ue G.
  induction hs2 as [|h hs2 IH]; intros w (s & Sr) (ho & Ov) Ue G w2 NC H; cbn [steps] in H.
  { now injection H as <-. }
  destruct (toy_step w h) as [w1|] eqn:E; [|discriminate].
  assert (K : (exists s, srv nat (which * event nat) w1 = Serving Settings s) /\
              (exists h, cli nat (which * event nat) w1 = Over h) /\
              up_end nat (which * event nat) w1 = false /\
              get 7 (l_subs (logs nat (which * event nat) w1 Settings)) <> None).
  { destruct h as [k op|n|n| | | | | | |n|]; cbn [step] in E; try (rewrite Sr in E; discriminate);
      try (rewrite Ov in E; discriminate).
    - destruct (others nat 7 op) eqn:O; [|discriminate]. injection E as <-.
      cbn [set_logs logs srv cli up_end]. repeat (split; [eauto; fail|]).
      unfold upd_log. destruct (dec Settings k) as [<-|_]; [|assumption].
      pose proof (log_step_other 7 op (logs nat (which * event nat) w Settings) O) as Lo.
      destruct op as [a|i m|i|i]; try (rewrite Lo; assumption).
      cbn [log_step]. rewrite get_append. now destruct (get 7 _).
    - destruct (_ && _); [|discriminate]. injection E as <-. cbn [logs srv cli up_end]. eauto 6.
    - destruct (_ && _); [|discriminate]. injection E as <-. cbn [logs srv cli up_end]. eauto 6.
    - rewrite Sr in E. destruct s; [|discriminate].
      destruct (get 7 (l_subs (logs nat (which * event nat) w Settings))) as [[[|e q] o]|] eqn:Ge; try discriminate.
      assert (Gs : get 7 (l_subs (upd_log nat (logs nat (which * event nat) w) Settings
                     (send 7 (logs nat (which * event nat) w Settings)) Settings)) <> None).
      { unfold upd_log. cbn. unfold send. rewrite Ge. cbn [q_queue l_subs]. now rewrite get_put_eq. }
      destruct (write_event nat toy_dumps Settings e); injection E as <-;
        cbn [write_down set_srv set_logs logs srv cli up_end]; eauto 8.
    - rewrite Sr, Ue in E. destruct (up _ _ w); discriminate.
    - exfalso. now apply (NC n); left. }
  destruct K as (K1 & K2 & K3 & K4). eapply (IH w1); eauto. intros n J. apply (NC n). now right.
Qed.

(** C78 finding: when the connection is reset, events that had arrived at the client before are lost:
    the next read raises what the transport reported, whatever is in the buffer. *)
Theorem C78_reset_discards_events_refuted :
  exists hs w, toy_steps (toy_start 0 toy_before) hs = Some w /\
    cli nat (which * event nat) w = Listening /\ yielded nat (which * event nat) w = [] /\
    (exists w1, toy_steps w [ClientReads nat] = Some w1 /\
       yielded nat (which * event nat) w1 = [(Settings, (1, 5))]) /\
    exists w2, toy_steps w [Reset nat] = Some w2 /\ yielded nat (which * event nat) w2 = [] /\
      toy_step w2 (ClientReads nat) = None.
Proof.
  exists [ArriveUp nat 9; ServerReads nat; ServerRegisters nat; ServerSends nat; ArriveDown nat 27; ClientReads nat].
  eexists. split; [vm_compute; reflexivity|]. split; [reflexivity|]. split; [reflexivity|].
  split; eexists; (split; [vm_compute; reflexivity|]); auto.
Qed.

(** C78 finding: [after_seq] is compared only with the events that are there when the server registers
    the subscriber.  A consumer that asks for events after number 9 of a log that has come to number 2
    (because the graph server was restarted, say) is sent number 3. *)
Theorem C78_earlier_events_delivered_refuted :
  exists hs w, toy_steps (toy_start 9 toy_before) hs = Some w /\
    yielded nat (which * event nat) w = [(Settings, (3, 8))].
Proof.
  exists [ArriveUp nat 18; ServerReads nat; ServerRegisters nat; Log nat Settings (Append 8); ServerSends nat;
          ArriveDown nat 32; ClientReads nat; ClientReads nat].
  eexists. split; [vm_compute; reflexivity|]. reflexivity.
Qed.

Print Assumptions C78_in_order.
Print Assumptions C78_exactly_what_is_owed.
Print Assumptions C78_nothing_missing.
Print Assumptions C78_all_sent_before_the_end.
Print Assumptions C78_ends_without_error.
Print Assumptions C78_closes.
Print Assumptions C78_forgotten.
Print Assumptions C78_comes_to_rest.
Print Assumptions C78_cancelled_subscription_stays_refuted.
Print Assumptions C78_reset_discards_events_refuted.
Print Assumptions C78_earlier_events_delivered_refuted.
