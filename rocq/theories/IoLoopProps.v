(* C90: requests to a process and reports of its settings wait for each other. *)

From Coq Require Import List Arith Bool Lia.
From Verif Require Import IoLoopModel IoLoopSpec IoLoopProofs.
Import ListNotations.

(** Whatever happens, requests are answered in order, and each unit gets the messages of the field changes and of
    the other publishers in order, none twice and none left out. *)
Theorem C90_in_order :
  forall verdict n l s, run verdict n init l = Some s ->
  prefix (replies s) (requests l) /\
  forall u, prefix (got u true (given s)) (changes u l) /\ prefix (got u false (given s)) (others u l).
Proof.
  intros verdict n l s R. destruct (inv_run _ _ _ _ R) as (dn & RQ & (c & P) & _ & A & O & _). split.
  - rewrite requests_reqs, RQ, map_app, P, <- app_assoc. eexists. reflexivity.
  - intros u. rewrite changes_reqs, RQ, asks_app, A, O, !got_app, <- !app_assoc. split; eexists; reflexivity.
Qed.

(** What the process and the server do by themselves comes to an end. *)
Theorem C90_few_moves :
  forall verdict n l s, run verdict n init l = Some s ->
  how_many own l <= 8 * how_many is_request l + 6 * how_many is_outside l + 1.
Proof. intros verdict n l s R. apply todo_run in R. unfold todo at 2 in R. cbn in R. unfold how_many in *. lia. Qed.

(** They never wait for each other for ever: where nothing goes on, all is done; and if the connection was closed,
    the units have still got all that the others published, and every change that was confirmed. *)
Theorem C90_everything_ends :
  forall verdict n l s, 0 < n -> run verdict n init l = Some s -> at_rest verdict n s ->
  (eof s = false -> all_done l s) /\
  (forall u, got u false (given s) = others u l) /\
  (NoDup (requests l) -> forall u r, In (Request (Ask u r)) l -> In r (replies s) -> In r (got u true (given s))).
Proof.
  intros verdict n l s N R AR. pose proof (inv_run _ _ _ _ R) as IV. split; [intros E; eapply rest_done; eauto|].
  destruct (rest_empty _ _ _ N AR) as (W0 & _ & B0 & _). destruct IV as (dn & RQ & (c & P) & _ & A & O & _). rewrite W0, B0 in A, O. cbn [app] in A, O.
  split; [intros u; rewrite O, app_nil_r; reflexivity|]. intros ND u r IL IR. specialize (A u). rewrite app_nil_r in A. rewrite <- A.
  assert (ID : In r (map num dn)) by (rewrite P; apply in_or_app; auto). apply in_map_iff in ID as (q & NQ & IQ).
  assert (IA : In (Ask u r) (reqs l)). { unfold reqs. apply in_flat_map. exists (Request (Ask u r)). split; [exact IL|now left]. }
  rewrite requests_reqs in ND. assert (q = Ask u r).
  { assert (IQ2 : In q (reqs l)) by (rewrite RQ; apply in_or_app; auto). assert (NA : num q = num (Ask u r)) by exact NQ. clear - ND IA IQ2 NA.
    induction (reqs l) as [|x k IH]; [destruct IA|]. cbn [map] in ND. inversion ND as [|? ? NI ND2]; subst.
    destruct IA as [EA|IA], IQ2 as [EQ|IQ2]; [congruence| | |auto]; exfalso; apply NI; subst x.
    - rewrite <- NA. now apply in_map.
    - rewrite NA. now apply in_map. }
  subst q. unfold asks. apply in_flat_map. exists (Ask u r). split; [exact IQ|]. rewrite Nat.eqb_refl. now left.
Qed.

(** From everywhere they can come to rest. *)
Theorem C90_comes_to_rest :
  forall verdict n s, 0 < n -> exists l s', forallb own l = true /\ run verdict n s l = Some s' /\ at_rest verdict n s'.
Proof. exact comes_to_rest. Qed.

(** As long as nobody asks for more than [n] changes of a unit ahead of the unit, no time-out is needed: if nothing
    but time-outs is possible, then all is done. *)
Theorem C90_no_timeout_needed :
  forall verdict n l s, 0 < n -> run verdict n init l = Some s -> modest verdict n l -> eof s = false ->
  waits_for_timeout verdict n s -> all_done l s.
Proof.
  intros verdict n l s N R M E W. pose proof (inv_run _ _ _ _ R) as IV. eapply rest_done; eauto. eapply timeout_rest; eauto. eapply modest_reads; eauto.
Qed.

(** Only one thing can make a report wait for its time-out while the server is there: the process is at a field change of a unit
    that holds [n] messages of field changes and waits for an answer, and does not read the answers to the reports,
    though they are there. *)
Theorem C90_only_this_cycle :
  forall verdict n l s, 0 < n -> run verdict n init l = Some s -> eof s = false ->
  waits_for_timeout verdict n s -> ~ all_done l s ->
  exists u r m, In (Request (Ask u r)) l /\ (io s = Blocked u r) /\ In m (waiting s) /\ unit_ m = u /\
    n <= length (got u true (inbox s ++ waiting s)) /\ working s = [] /\
    thinned (map verdict (waiting s)) (unread_answers s).
Proof.
  intros verdict n l s N R E W ND. pose proof (inv_run _ _ _ _ R) as IV.
  destruct (io s) as [|u r|] eqn:IO.
  1: { exfalso. apply ND. eapply rest_done; eauto. eapply timeout_rest; eauto. intros; rewrite IO; discriminate. }
  2: { exfalso. apply ND. eapply rest_done; eauto. eapply timeout_rest; eauto. intros; rewrite IO; discriminate. }
  pose proof IV as (dn & RQ & _ & _ & _ & _ & _ & _ & T).
  assert (K : working s = []) by (apply empty_by; intros m I; apply (can_finish verdict n s m I), W; reflexivity).
  assert (U : n <= used s u). { specialize (W (Unblock false) eq_refl eq_refl). cbn [step] in W. rewrite IO in W. destruct (used s u <? n) eqn:L; [discriminate|]. now apply Nat.ltb_ge. }
  rewrite used_got, K in U. cbn in U.
  assert (RP : reports s = []). { destruct (reports s) eqn:RP; auto. exfalso. specialize (W Serve eq_refl eq_refl). cbn [step] in W. rewrite E, RP in W. discriminate. }
  assert (X : exists m, In m (waiting s) /\ unit_ m = u).
  { destruct (existsb (is_of u) (waiting s)) eqn:EX; [apply existsb_exists in EX as (m & I & O); exists m; split; [exact I|now apply Nat.eqb_eq]|]. exfalso.
    assert (GW : got u true (waiting s) = []). { apply got_no. intros x I EQ. assert (existsb (is_of u) (waiting s) = true); [|congruence]. apply existsb_exists. exists x. split; auto. now apply Nat.eqb_eq. }
    rewrite GW in U. cbn in U. destruct (got u true (inbox s)) as [|z k] eqn:GB; [cbn in U; lia|]. assert (IZ : In z (got u true (inbox s))) by (rewrite GB; now left).
    unfold got in IZ. apply in_map_iff in IZ as (m & _ & IM). apply filter_In in IM as (IM & EM). apply andb_true_iff in EM as (EM & _). apply Nat.eqb_eq in EM.
    specialize (W (Take u) eq_refl eq_refl). cbn [step] in W. rewrite K, app_nil_r, EX in W. pose proof (pick_some u _ m IM EM). destruct (pick u (inbox s)) as [[? ?]|]; [discriminate|congruence]. }
  destruct X as (m & IM & UM). exists u, r, m.
  assert (Q : ackq s = []). { specialize (W Get eq_refl eq_refl). cbn [step] in W. destruct (waiting s); [destruct IM|]. destruct (ackq s); [reflexivity|discriminate]. }
  repeat split; auto.
  - assert (I : In (Ask u r) (reqs l)) by (rewrite RQ, IO; apply in_or_app; right; now left). unfold reqs in I. apply in_flat_map in I as (e & IE & I). destruct e; try destruct I. subst. exact IE. destruct H.
  - rewrite got_app, app_length. lia.
  - specialize (T E). unfold avail in T. rewrite Q, RP in T. cbn in T. rewrite app_nil_r in T. exact T.
Qed.

(** Without time-outs and lost connections, each report comes to what the server says about it. *)
Theorem C90_truthful :
  forall verdict n l s, run verdict n init l = Some s -> how_many is_expire l = 0 -> how_many is_fail l = 0 ->
  forall m o, In (m, o) (outcomes s) -> o = if verdict m then Recorded else Refused.
Proof.
  intros verdict n l s R X F. assert (M : matched verdict init) by (repeat split; [intros m o []|apply prefix_refl]). exact (proj1 (matched_run _ _ _ _ _ M X F R)).
Qed.

(** Once the process has noticed that the connection is closed, it never reports settings again. *)
Theorem C90_never_again :
  forall verdict n l1 l2 s s', run verdict n init l1 = Some s -> io s = Gone -> ackq s = [] -> run verdict n s l2 = Some s' ->
  exists x, outcomes s' = outcomes s ++ x /\ forall m o, In (m, o) x -> o = Late \/ o = Lost.
Proof. intros verdict n l1 l2 s s' _ G Q R. eapply gone_run; eauto. Qed.

(** ** What goes wrong *)

(** [n] changes that the unit does not look at. *)
Definition fill (k : nat) : list event := flat_map (fun i => [Request (Ask 0 i); Read false]) (seq 0 k).
Definition own_msgs (l : list nat) : list message := map (Msg 0 true) l.

Lemma own_used l : length (filter (ctl_of 0) (own_msgs l)) = length l.
Proof. induction l; cbn; auto. Qed.

Lemma filled verdict n k : k <= n -> run verdict n init (fill k) = Some (mkSt [] false Reading (own_msgs (seq 0 k)) [] [] [] [] (seq 0 k) [] []).
Proof.
  induction k as [|k IH]; intros L; [reflexivity|]. unfold fill. rewrite seq_S, flat_map_app, run_app. fold (fill k). rewrite IH by lia. cbn [flat_map app run step eof set_down down].
  cbn [io andb]. unfold read. cbn [down set_down app]. unfold used at 1. cbn [inbox waiting working set_down]. rewrite own_used, seq_length. cbn [filter length]. rewrite !Nat.add_0_r.
  destruct (k <? n) eqn:E; [|apply Nat.ltb_ge in E; lia]. unfold own_msgs. rewrite map_app. reflexivity.
Qed.

Definition cycle (n : nat) : list event := fill n ++ [Take 0; Outside 1 0; Take 1; Request (Ask 0 n); Serve; Serve; Read false].

Lemma cycled verdict k : run verdict (S k) init (cycle (S k)) =
  Some (mkSt [Ack (verdict (Msg 0 true 0)); Ack (verdict (Msg 1 false 0))] false (Blocked 0 (S k)) (own_msgs (seq 1 k)) [Msg 0 true 0; Msg 1 false 0] [] [] [] (seq 0 (S k)) [] []).
Proof.
  unfold cycle. rewrite run_app, filled by lia. cbn [seq own_msgs map].
  cbn [run step waiting working app existsb inbox pick is_of unit_ Nat.eqb eof down io reports ackq replies given outcomes publish set_down].
  assert (P : pick 1 (map (Msg 0 true) (seq 1 k) ++ [Msg 1 false 0]) = Some (Msg 1 false 0, map (Msg 0 true) (seq 1 k))).
  { generalize (seq 1 k) as l. induction l as [|x l IH]; [reflexivity|]. cbn [map app pick is_of unit_ Nat.eqb]. rewrite IH. reflexivity. }
  cbn [orb]. rewrite P. fold (own_msgs (seq 1 k)). cbn -[used Nat.ltb own_msgs]. unfold used at 1. cbn [inbox waiting working]. rewrite own_used, seq_length. cbn [filter length ctl_of is_of unit_ ctl Nat.eqb andb].
  destruct (_ <? S k) eqn:E; [apply Nat.ltb_lt in E; lia|]. reflexivity.
Qed.

Lemma cycle_waits verdict k s : run verdict (S k) init (cycle (S k)) = Some s -> waits_for_timeout verdict (S k) s.
Proof.
  rewrite cycled. intros [= <-] e O X. destruct e; try discriminate; cbn [step io eof waiting working ackq reports negb existsb is_of unit_ app pick]; try reflexivity.
  - unfold used. cbn [inbox waiting working]. rewrite own_used, seq_length. cbn [filter length ctl_of is_of unit_ ctl Nat.eqb andb]. destruct (_ <? S k) eqn:E; [apply Nat.ltb_lt in E; lia|]. reflexivity.
  - destruct u as [|[|u]]; cbn; try reflexivity. assert (P : pick (S (S u)) (own_msgs (seq 1 k)) = None); [|cbn [inbox]; rewrite P; reflexivity].
    unfold own_msgs. generalize (seq 1 k) as l. induction l as [|x l IH]; [reflexivity|]. cbn. rewrite IH. reflexivity.
Qed.

(** C90 finding: the reader of the connection handles a field change before it reads on, and a field change waits for a free
    buffer; the unit frees one after its report was answered, and the answer is behind the reader's back.  When one more
    change comes than the unit has buffers, request, unit and report wait for each other until the report times out after
    5 seconds, though the server has answered it. *)
Theorem C90_no_timeout_refuted :
  forall n, 0 < n -> ~ (forall verdict l s, run verdict n init l = Some s -> eof s = false -> waits_for_timeout verdict n s -> all_done l s).
Proof.
  intros [|k] N H; [lia|]. pose proof (cycled (fun _ => true) k) as R. specialize (H _ _ _ R eq_refl (cycle_waits _ _ _ R)). destruct H as (_ & H). destruct (H 0) as (C & _).
  discriminate C.
Qed.

(** C90 finding: the units of a process share the connection: the report of a unit that was never asked to change a field
    times out too. *)
Theorem C90_other_units_refuted :
  forall n, 0 < n -> ~ (forall verdict l s m, run verdict n init l = Some s -> eof s = false -> waits_for_timeout verdict n s ->
    changes (unit_ m) l = [] -> ~ In m (waiting s)).
Proof.
  intros [|k] N H; [lia|]. pose proof (cycled (fun _ => true) k) as R. apply (H _ _ _ (Msg 1 false 0) R eq_refl (cycle_waits _ _ _ R)); [|cbn; auto].
  cbn [unit_]. unfold cycle, fill, changes. rewrite flat_map_app. cbn [flat_map Nat.eqb app]. rewrite app_nil_r. generalize (seq 0 (S k)) as j. induction j; cbn; auto.
Qed.

(** C90 finding: after such a time-out the answer to the old report is taken for the answer to the next one, so that a report
    that the server refuses passes for a recorded one, though time-outs happen only where nothing else is possible. *)
Theorem C90_wrong_outcome_refuted :
  forall n, 0 < n -> ~ (forall verdict l s m, run verdict n init l = Some s -> patient verdict n l -> eof s = false ->
    In (m, Recorded) (outcomes s) -> verdict m = true).
Proof.
  intros [|k] N H; [lia|]. set (verdict := fun m => ctl m). pose (tail := [Finish 0; Unblock false; Read false; Get]).
  assert (R : exists s, run verdict (S k) init (cycle (S k) ++ Expire 0 :: tail) = Some s /\ eof s = false /\ In (Msg 1 false 0, Recorded) (outcomes s)).
  { rewrite run_app, cycled. unfold tail. cbn -[used Nat.ltb own_msgs]. unfold used at 1. cbn [inbox waiting working]. rewrite own_used, seq_length. cbn [filter length ctl_of is_of unit_ ctl Nat.eqb andb].
    replace (k + 0 + 0 <? S k) with true by (symmetry; apply Nat.ltb_lt; lia). cbn -[used Nat.ltb own_msgs]. eexists. split; [reflexivity|]. split; [reflexivity|]. cbn. auto. }
  destruct R as (s & R & E & I). specialize (H verdict _ s (Msg 1 false 0) R).
  assert (PA : patient verdict (S k) (cycle (S k) ++ Expire 0 :: tail)).
  { assert (NX : forall e, In e (cycle (S k)) -> is_expire e = false).
    { intros e IE. unfold cycle in IE. apply in_app_or in IE as [IE|IE]; [unfold fill in IE; apply in_flat_map in IE as (i & _ & [<-|[<-|[]]]); reflexivity|]. cbn in IE. intuition (subst; reflexivity). }
    intros l1 u l2 s1 EQ R1.
    assert (L1 : l1 = cycle (S k)).
    { clear - EQ NX. revert l1 EQ NX. generalize (cycle (S k)) as c. induction c as [|x c IH]; intros l1 EQ NX.
      - destruct l1 as [|y l1]; [auto|]. exfalso. unfold tail in EQ. cbn in EQ. injection EQ as _ EQ. do 4 (destruct l1 as [|? l1]; [discriminate EQ|injection EQ as _ EQ]). destruct l1; discriminate EQ.
      - destruct l1 as [|y l1]; [injection EQ as -> _; specialize (NX (Expire u) (or_introl eq_refl)); discriminate|]. injection EQ as <- EQ. rewrite (IH l1 EQ); [reflexivity|]. intros e IE. apply NX. now right. }
    subst l1. eapply cycle_waits; eauto. }
  specialize (H PA E I). discriminate.
Qed.

(** C90 finding: a request that needs nothing from the units, such as a ping, is not answered before a unit that has [n]
    changes before it is done with the message it is working on. *)
Theorem C90_ping_refuted :
  forall n, 0 < n -> ~ (forall verdict l s r, run verdict n init l = Some s -> eof s = false ->
    (forall e, own e = true -> (forall u, e <> Finish u) -> step verdict n s e = None) ->
    In (Request (Quick r)) l -> In r (replies s)).
Proof.
  intros [|k] N H; [lia|]. set (verdict := fun _ : message => true). pose (tail := [Take 0; Serve; Read false; Get; Request (Ask 0 (S k)); Read false; Request (Quick (S (S k)))]).
  pose (s := mkSt [Req (Quick (S (S k)))] false (Blocked 0 (S k)) (own_msgs (seq 1 k)) [] [Msg 0 true 0] [] [] (seq 0 (S k)) [Msg 0 true 0] [(Msg 0 true 0, Recorded)]).
  assert (R : run verdict (S k) init (fill (S k) ++ tail) = Some s).
  { rewrite run_app, filled by lia. unfold tail. cbn [seq own_msgs map]. fold (own_msgs (seq 1 k)). cbn -[used Nat.ltb own_msgs]. unfold used at 1. cbn [inbox waiting working set_down hand_over app]. rewrite own_used, seq_length. cbn [filter length ctl_of is_of unit_ ctl Nat.eqb andb]. replace (k + 0 + 1 <? S k) with false by (symmetry; apply Nat.ltb_ge; lia). reflexivity. }
  assert (I : In (S (S k)) (replies s)).
  { apply (H verdict _ s (S (S k)) R eq_refl); [|apply in_or_app; right; cbn; auto 10]. intros e O F. unfold s. destruct e; try discriminate; cbn [step io eof waiting working ackq reports negb pick]; try reflexivity.
    - unfold used. cbn [inbox waiting working]. rewrite own_used, seq_length. cbn [filter length ctl_of is_of unit_ ctl Nat.eqb andb]. replace (k + 0 + 1 <? S k) with false by (symmetry; apply Nat.ltb_ge; lia). reflexivity.
    - cbn [app existsb is_of unit_]. destruct u; [reflexivity|]. cbn [Nat.eqb orb inbox]. assert (P : pick (S u) (own_msgs (seq 1 k)) = None); [|rewrite P; reflexivity].
      unfold own_msgs. generalize (seq 1 k) as l. induction l as [|x l IH]; [reflexivity|]. cbn. rewrite IH. reflexivity.
    - destruct (F u eq_refl). }
  unfold s in I. cbn [replies] in I. apply in_seq in I. lia.
Qed.

(** Two units, three changes and a ping, a message of another publisher, two buffers: all is done in the end. *)
Definition example : list event :=
  [Request (Ask 0 10); Outside 1 7; Read false; Request (Ask 0 11); Take 0; Take 1; Serve; Serve; Read false; Read false; Read false; Get; Get;
   Finish 0; Request (Ask 1 12); Request (Quick 13); Read false; Take 0; Serve; Read false; Finish 1; Read false; Get; Take 1; Finish 0; Serve; Read false; Get; Finish 1].

Example C90_case :
  exists s, run ctl 2 init example = Some s /\ modest ctl 2 example /\ eof s = false /\ at_rest ctl 2 s /\
  replies s = [10; 11; 12; 13] /\ got 0 true (given s) = [10; 11] /\ got 1 true (given s) = [12] /\ got 1 false (given s) = [7] /\
  outcomes s = [(Msg 0 true 10, Recorded); (Msg 1 false 7, Refused); (Msg 0 true 11, Recorded); (Msg 1 true 12, Recorded)] /\
  how_many is_expire example = 0 /\ how_many is_fail example = 0.
Proof.
  eexists. split; [vm_compute; reflexivity|]. split; [|split; [reflexivity|split; [|repeat split; reflexivity]]].
  - intros l1 l2 s u E R. destruct u as [|[|u]].
    3: { assert (Z : changes (S (S u)) l1 ++ changes (S (S u)) l2 = []) by (unfold changes; rewrite <- flat_map_app, <- E; reflexivity). apply app_eq_nil in Z as (-> & _). cbn. lia. }
    1: pose (v := 0). 2: pose (v := 1).
    all: assert (C : forallb (fun k => match run ctl 2 init (firstn k example) with Some s => length (changes v (firstn k example)) <=? 2 + finished v s | None => true end) (seq 0 40) = true) by (vm_compute; reflexivity);
      rewrite forallb_forall in C; specialize (C (length l1)); rewrite E, firstn_app, Nat.sub_diag, firstn_all in C; cbn [firstn] in C; rewrite app_nil_r, R in C; apply Nat.leb_le, C, in_seq;
      apply (f_equal (@length event)) in E; rewrite app_length in E; change (length example) with 29 in E; lia.
  - intros e O. destruct e; try discriminate; try reflexivity. destruct bad; reflexivity.
Qed.

(** The server goes away: a waiting report expires, another cannot be written, and nothing is reported again. *)
Example C90_closed_case :
  exists s, run ctl 2 init [Request (Ask 0 1); Request (Ask 0 2); Read false; Take 0; Close; Read true; Expire 0; Finish 0; Take 0; Fail 0; Finish 0; Outside 1 5; Take 1; Expire 1; Finish 1] = Some s /\
  at_rest ctl 2 s /\ io s = Gone /\ ackq s = [] /\ replies s = [1] /\ got 0 true (given s) = [1; 2] /\
  outcomes s = [(Msg 0 true 1, Late); (Msg 0 true 2, Lost); (Msg 1 false 5, Late)].
Proof.
  eexists. split; [vm_compute; reflexivity|]. split; [|repeat split; reflexivity]. intros e O. destruct e; try discriminate; reflexivity.
Qed.

Print Assumptions C90_in_order.
Print Assumptions C90_few_moves.
Print Assumptions C90_everything_ends.
Print Assumptions C90_comes_to_rest.
Print Assumptions C90_no_timeout_needed.
Print Assumptions C90_only_this_cycle.
Print Assumptions C90_truthful.
Print Assumptions C90_never_again.
Print Assumptions C90_no_timeout_refuted.
Print Assumptions C90_other_units_refuted.
Print Assumptions C90_wrong_outcome_refuted.
Print Assumptions C90_ping_refuted.
