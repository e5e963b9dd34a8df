(** C75: the calls that are made on one graph context, by whatever tasks, reach the graph server in
    the order of the calls, and each caller gets the answer to its own request, whatever the callers
    that are cancelled, the pieces in which the bytes arrive and the failures. *)
From Coq Require Import List NArith Arith Bool Lia.
From Coq Require Import Strings.Byte.
From Verif Require Import CodecModel CodecProofs StreamModel StreamProofs SessionModel SessionSpec SessionProofs.
Import ListNotations.

Section Props.
Variable V : Type.
Variable loads : bytes -> option V.
Variable int_ok float_ok : pystr -> bool.
Notation step := (step V loads int_ok float_ok).
Notation steps := (steps V loads int_ok float_ok).
Notation reachable := (reachable V loads int_ok float_ok).
Notation Inv := (Inv V loads).

Lemma steps_app es1 : forall s es2, steps s (es1 ++ es2) = match steps s es1 with Some s' => steps s' es2 | None => None end.
Proof.
  induction es1 as [|e es1 IH]; intros s es2; [reflexivity|]. cbn [app SessionModel.steps]. destruct (step s e); [apply IH|reflexivity].
Qed.

Lemma reachable_Inv s : reachable s -> Inv s.
Proof. intros [es H]. eapply Inv_steps; [apply Inv_start|exact H]. Qed.

Lemma answered_call s j c a : Inv s -> was_answered V s j c a -> was_called V s j c /\ fits c a = true.
Proof.
  intros [A [B [C [D _]]]] H. unfold was_answered in H. split; [|apply D; eapply nth_error_In; exact H].
  assert (L : j < length (executed V s)) by (apply nth_error_Some; congruence).
  apply (map_nth_error fst) in H. rewrite B in H. cbn [fst] in H. unfold was_called.
  rewrite <- (firstn_skipn (length (executed V s)) (calls V s)).
  rewrite nth_error_app1; [exact H|]. rewrite firstn_length_le; lia.
Qed.

(** The server has executed the first calls, in the order in which they were made, each once, and
    none that was not made. *)
Theorem C75_executed_in_order s : reachable s ->
  exists n, n <= length (calls V s) /\ map fst (executed V s) = firstn n (calls V s).
Proof. intros R. destruct (reachable_Inv s R) as [A [B [C _]]]. exists (length (executed V s)). auto. Qed.

(** What a caller gets is the answer to its own request; or else the connection has ended, and its
    request has not been executed. *)
Theorem C75_own_answer s j r : reachable s -> stands V s j (Got V r) ->
  (r = nothing V /\ srv V s = false /\ forall c a, ~ was_answered V s j c a) \/
  exists c a, was_called V s j c /\ was_answered V s j c a /\ receives V loads a r.
Proof.
  intros R H. pose proof (reachable_Inv s R) as I. pose proof I as I0. destruct I as [A [B [C [D [E F]]]]].
  destruct (E j r H) as [[-> [Y Z]]|[c [a [Y Z]]]].
  - left. split; [reflexivity|]. split; [exact Y|]. intros c a X. unfold was_answered in X.
    assert (j < length (executed V s)) by (apply nth_error_Some; congruence). lia.
  - right. exists c, a. split; [|split; [exact Y|exact Z]]. apply (answered_call s j c a I0 Y).
Qed.

Lemma command_byte_inj a b : command_byte a = command_byte b -> a = b.
Proof.
  intros H. assert (X : command_of_bytes [command_byte a] = command_of_bytes [command_byte b]) by (now rewrite H).
  rewrite !command_of_byte in X. congruence.
Qed.

(** The response of a call of the byte kind says which answer was given to it. *)
Lemma byte_response s j c b x : reachable s -> was_called V s j c -> stands V s j (Got V (RByte V b)) ->
  (b = [command_byte x] <-> was_answered V s j c (AByte x)).
Proof.
  intros R C H. pose proof (C75_own_answer s j _ R H) as O. unfold was_called, was_answered in *. split.
  - intros ->. destruct O as [[O _]|[c' [a [X [Y Z]]]]]; [discriminate|]. assert (c' = c) as -> by congruence.
    destruct a as [y|p]; [|destruct Z]. cbn in Z. injection Z as Z. apply command_byte_inj in Z. now subst y.
  - intros W. destruct O as [[_ [_ O]]|[c' [a [X [Y Z]]]]]; [exfalso; exact (O _ _ W)|].
    assert (a = AByte x) as -> by congruence. exact Z.
Qed.

Lemma value_response s j c v : reachable s -> was_called V s j c -> stands V s j (Got V (RValue V v)) ->
  exists p, was_answered V s j c (APickled p) /\ loads p = Some v.
Proof.
  intros R C H. pose proof (C75_own_answer s j _ R H) as O. unfold was_called, was_answered in *.
  destruct O as [[O _]|[c' [a [X [Y Z]]]]]; [discriminate|]. assert (c' = c) as -> by congruence.
  destruct a as [y|p]; [destruct Z|]. exists p. auto.
Qed.

Lemma kind_of s j c r : reachable s -> was_called V s j c -> stands V s j (Got V r) -> sc_kind (command_of c) = BYTE -> exists b, r = RByte V b.
Proof.
  intros R C H K. destruct r as [b|v]; [now exists b|exfalso].
  destruct (value_response s j c v R C H) as [p [W _]]. apply answered_call in W as [_ F]; [|now apply reachable_Inv].
  destruct c; discriminate.
Qed.

(** connect() returns if and only if the server has answered COMPLETE to this very request, and it
    raises CyclicException if and only if the server has answered CYCLIC to it. *)
Theorem C75_connect s j f t r : reachable s -> was_called V s j (Connect f t) -> stands V s j (Got V r) ->
  (method_result V (Connect f t) r = Returns V None <-> was_answered V s j (Connect f t) (AByte COMPLETE)) /\
  (method_result V (Connect f t) r = RaisesCyclic V <-> was_answered V s j (Connect f t) (AByte CYCLIC)).
Proof.
  intros R C H. destruct (kind_of s j _ r R C H eq_refl) as [b ->].
  rewrite <- (byte_response s j _ b COMPLETE R C H), <- (byte_response s j _ b CYCLIC R C H). cbn [method_result].
  destruct (list_eq_dec Byte.byte_eq_dec b [command_byte CYCLIC]) as [->|N].
  - split; split; try discriminate; auto.
  - destruct (list_eq_dec Byte.byte_eq_dec b [command_byte COMPLETE]) as [->|N']; split; split; try discriminate; auto; contradiction.
Qed.

(** disconnect() and register_metadata() return if and only if the server has answered COMPLETE. *)
Theorem C75_disconnect_register s j c r : reachable s -> was_called V s j c -> stands V s j (Got V r) ->
  (exists f t, c = Disconnect f t) \/ (exists p, c = Register p) ->
  (method_result V c r = Returns V None <-> was_answered V s j c (AByte COMPLETE)).
Proof.
  intros R C H K. assert (KB : sc_kind (command_of c) = BYTE) by (destruct K as [[f [t ->]]|[p ->]]; reflexivity).
  destruct (kind_of s j _ r R C H KB) as [b ->]. rewrite <- (byte_response s j _ b COMPLETE R C H).
  destruct K as [[f [t ->]]|[p ->]]; cbn [method_result];
    (destruct (list_eq_dec Byte.byte_eq_dec b [command_byte COMPLETE]) as [->|N]; split; try discriminate; auto; contradiction).
Qed.

(** A query returns the object that the server has sent in answer to this very query. *)
Theorem C75_queries s j c r v : reachable s -> was_called V s j c -> stands V s j (Got V r) ->
  method_result V c r = Returns V (Some v) -> exists p, was_answered V s j c (APickled p) /\ loads p = Some v.
Proof.
  intros R C H M. destruct r as [b|w].
  - exfalso. destruct c; cbn [method_result] in M; try discriminate;
      repeat destruct (list_eq_dec Byte.byte_eq_dec _ _); discriminate.
  - assert (w = v) as -> by (destruct c; cbn in M; congruence). exact (value_response s j c v R C H).
Qed.

Lemma set_out_settled (l : list (outcome V)) i x j o : nth_error l j = Some o -> o <> Pending V -> nth_error (set_out V l i x) j = Some o.
Proof.
  intros H N. destruct (Nat.eq_dec j i) as [->|NE]; [|now rewrite set_out_neq].
  rewrite set_out_eq, H. destruct o; congruence.
Qed.

Lemma fail_all_settled q : forall (l : list (outcome V)) j o, nth_error l j = Some o -> o <> Pending V -> nth_error (fail_all q l) j = Some o.
Proof.
  induction q as [|[[i c]|] q IH]; intros l j o H N; [exact H| |].
  - change (nth_error (fail_all q (set_out V l i (Failed V))) j = Some o). apply IH; [now apply set_out_settled|exact N].
  - change (nth_error (fail_all q l) j = Some o). now apply IH.
Qed.

Lemma app_settled (l l2 : list (outcome V)) j o : nth_error l j = Some o -> nth_error (l ++ l2) j = Some o.
Proof. intros H. rewrite nth_error_app1; [exact H|]. apply nth_error_Some. congruence. Qed.

Lemma settled_step s e s' j o : step s e = Some s' -> stands V s j o -> o <> Pending V -> stands V s' j o.
Proof.
  unfold stands. intros H S N.
  assert (EL : forall u, outs V u = outs V s -> nth_error (outs V (end_loop V u)) j = Some o).
  { intros u E. unfold end_loop. cbn [outs]. fold (@fail_all V (queue V u) (outs V u)). apply fail_all_settled; [congruence|exact N]. }
  destruct e as [c|i|  |lost|n|a| | | |n| | | | ]; cbn [SessionModel.step] in H;
    repeat first
      [ discriminate
      | match type of H with Some _ = Some _ => injection H as <- end
      | match type of H with (if ?x then _ else _) = _ => destruct x eqn:? end
      | match type of H with (let (_, _) := ?x in _) = _ => destruct x eqn:? end
      | match type of H with (match ?x with _ => _ end) = _ => destruct x eqn:? end ];
    cbn [outs close_srv respond]; auto using app_settled, set_out_settled.
  destruct (_ && _); [exact S|now apply EL].
Qed.

(** The outcome of a call is settled once and for all. *)
Theorem C75_settled_once s es s' j o : steps s es = Some s' -> stands V s j o -> o <> Pending V -> stands V s' j o.
Proof.
  revert s. induction es as [|e es IH]; intros s H S N; cbn [SessionModel.steps] in H; [congruence|].
  destruct (step s e) as [s1|] eqn:E; [|discriminate]. apply (IH s1 H); [|exact N]. exact (settled_step _ _ _ _ _ E S N).
Qed.

(** A call that fails because the session has ended is not executed: not before, and not later. *)
Theorem C75_failed_not_executed s j : reachable s -> stands V s j (Failed V) ->
  forall es s' c a, steps s es = Some s' -> ~ was_answered V s' j c a.
Proof.
  intros [es0 R] F es s' c a H W. pose proof (C75_settled_once s es s' j (Failed V) H F ltac:(discriminate)) as F'.
  assert (I : Inv s').
  { eapply Inv_steps; [|exact H]. eapply Inv_steps; [apply Inv_start|exact R]. }
  destruct I as [_ [_ [_ [_ [_ L]]]]]. unfold loop_ok in L. unfold stands, was_answered in *.
  assert (LT : j < length (executed V s')) by (apply nth_error_Some; congruence).
  destruct (loop V s') as [|i k|].
  - destruct L as [k [_ [_ [NF _]]]]. exact (NF j F').
  - destruct L as [_ [_ [NF _]]]. exact (NF j F').
  - destruct L as [m [M1 [_ [M3 _]]]]. specialize (M1 j F'). lia.
Qed.

(** The loop, the network and the server cannot be busy for ever; and when nothing more happens by
    itself, every call is settled, unless the session has ended. *)
Theorem C75_settles s : reachable s ->
  (forall f es, f 0 = s -> ~ forall n, by_itself (es n) = true /\ step (f n) (es n) = Some (f (S n))) /\
  ((forall e, by_itself e = true -> step s e = None) ->
   loop V s = Ended \/ forall j, ~ stands V s j (Pending V)).
Proof.
  intros R. pose proof (reachable_Inv s R) as I. split.
  - intros f es <- H. exact (no_infinite_run V loads int_ok float_ok f es I H).
  - intros ST. assert (FIT : forall c, exists a, fits c a = true /\ write_answer a <> None).
    { intros [f t|f t| |p| | |n|u o t p];
        first [exists (AByte COMPLETE); split; [reflexivity|discriminate] | exists (APickled []); split; [reflexivity|discriminate]]. } destruct (loop V s) as [|i k|] eqn:LP; [| |now left].
    1,2: right; intros j P; unfold stands in P; apply nth_error_In in P;
      destruct (progress V loads int_ok float_ok s I ltac:(congruence) P FIT) as [e [s' [X [_ [_ [_ Y]]]]]];
      rewrite (ST e X) in Y; discriminate.
Qed.

(** When the session has ended, at most one call is left waiting, and further calls fail at once. *)
Theorem C75_after_the_end s : reachable s -> loop V s = Ended ->
  (forall i j, stands V s i (Pending V) -> stands V s j (Pending V) -> i = j) /\
  forall c s', step s (Call c) = Some s' -> loop V s' = Ended /\ stands V s' (length (calls V s)) (Failed V).
Proof.
  intros R E. destruct (reachable_Inv s R) as [A [_ [_ [_ [_ L]]]]]. unfold loop_ok in L. rewrite E in L.
  destruct L as [m [_ [M2 _]]]. split; [exact M2|]. intros c s' H. cbn [SessionModel.step] in H. rewrite E in H. injection H as <-.
  split; [reflexivity|]. unfold stands. cbn [outs]. rewrite nth_error_app2, A, Nat.sub_diag by lia. reflexivity.
Qed.

(** When the context is closed in order, no call is left waiting: what was called before is answered,
    what was called after fails. *)
Theorem C75_orderly_close s q l s' : reachable s -> queue V s = None :: q -> step s (Take l) = Some s' ->
  loop V s' = Ended /\ forall j, ~ stands V s' j (Pending V).
Proof.
  intros R EQ H. pose proof (reachable_Inv s R) as I. cbn [SessionModel.step] in H. rewrite EQ in H.
  destruct (loop V s) as [|i k|] eqn:LP; try discriminate. injection H as <-. split; [reflexivity|].
  destruct I as [A [_ [_ [_ [_ L]]]]]. unfold loop_ok in L. rewrite LP in L. destruct L as [k [Q [P _]]].
  intros j X. unfold stands, end_loop in X. cbn [outs queue] in X. fold (@fail_all V q (outs V s)) in X.
  destruct (queued_all _ _ _ Q) as [Q1 _].
  destruct (Nat.lt_ge_cases j k) as [LT|GE].
  - apply fail_all_cases in X as [X|[X _]]; [exact (P j LT X)|discriminate].
  - assert (LJ : j < length (calls V s)).
    { rewrite <- A, <- (length_fail_all q (outs V s)). apply nth_error_Some. congruence. }
    destruct (Q1 j GE LJ) as [c IN]. rewrite EQ in IN. destruct IN as [IN|IN]; [discriminate|]. exact (fail_all_done _ _ _ _ IN X).
Qed.

Lemma stuck_step s e s' j : step s e = Some s' -> loop V s = Ended -> stands V s j (Pending V) -> e <> Cancel j ->
  loop V s' = Ended /\ stands V s' j (Pending V).
Proof.
  unfold stands. intros H L S N. destruct e as [c|i|  |lost|n|a| | | |n| | | | ]; cbn [SessionModel.step] in H; try rewrite L in H; try discriminate.
  2:{ injection H as <-. cbn [outs loop]. split; [first [exact L|reflexivity]|]. rewrite set_out_neq; [exact S|congruence]. }
  all: repeat first
      [ discriminate
      | match type of H with Some _ = Some _ => injection H as <- end
      | match type of H with (if ?x then _ else _) = _ => destruct x eqn:? end
      | match type of H with (match ?x with _ => _ end) = _ => destruct x eqn:? end ];
    cbn [outs loop close_srv]; auto using app_settled.
Qed.

(** The call has no outcome and gets none, whatever happens, unless its caller gives up. *)
Definition stranded (s : session V) (j : nat) : Prop :=
  forall es s', steps s es = Some s' -> ~ In (Cancel j) es -> stands V s' j (Pending V).

Lemma stuck s j : loop V s = Ended -> stands V s j (Pending V) -> stranded s j.
Proof.
  intros L S es. revert s L S. induction es as [|e es IH]; intros s L S s' H N; cbn [SessionModel.steps] in H; [congruence|].
  destruct (step s e) as [s1|] eqn:E; [|discriminate].
  destruct (stuck_step _ _ _ _ E L S) as [L1 S1]; [intros ->; apply N; now left|].
  apply (IH s1 L1 S1 s' H). intros X. apply N. now right.
Qed.

(** C75 finding: when the graph server is stopped while a query is under way, the caller waits for
    ever: the loop that serves the calls ends with an exception, which it gives to the calls that are
    queued, but not to the one it was dealing with. *)
Theorem C75_stopped_server_strands_a_query_refuted :
  exists es s, steps (start V) es = Some s /\ es = [Call Snapshot; Take false; ServerCloses; Eof] /\ stranded s 0.
Proof. eexists. eexists. split; [|split; [reflexivity|]]; [reflexivity|]. apply stuck; reflexivity. Qed.

(** C75 finding: a topic name that cannot be encoded strands the call that uses it, and ends the
    session for all others: calls that wait and calls to come fail. *)
Theorem C75_bad_name_ends_the_session_refuted t c :
  exists es s, steps (start V) es = Some s /\
    es = [Call (Connect [55296%N] t); Call c; Take false; Call c] /\
    stranded s 0 /\ stands V s 1 (Failed V) /\ stands V s 2 (Failed V).
Proof.
  eexists. eexists. split; [|split; [reflexivity|]]; [reflexivity|]. split; [apply stuck; reflexivity|].
  split; reflexivity.
Qed.
End Props.

(** A case: two calls, the second of which is cancelled while it waits; bytes come in pieces. *)
Definition abc : pystr := [97; 98; 99]%N.
Definition lens (b : bytes) : option nat := Some (length b).
Definition demo : list event :=
  [Call (Connect abc abc); Call (Connect abc [100%N]); Take false; Cancel 1; Up 5; Call Snapshot; Up 18; Serve (AByte CYCLIC); Down 1; Respond;
   Take false; Up 21; Serve (AByte COMPLETE); Down 1; Respond; Take false; Up 1; Serve (APickled [x01; x02]); Down 3; Down 8; Respond; Close; Take false].

Example C75_case : exists s, steps nat lens (fun _ => true) (fun _ => true) (start nat) demo = Some s /\
  outs nat s = [Got nat (RByte nat [command_byte CYCLIC]); Cancelled nat; Got nat (RValue nat 2)] /\
  executed nat s = [(Connect abc abc, AByte CYCLIC); (Connect abc [100%N], AByte COMPLETE); (Snapshot, APickled [x01; x02])] /\
  loop nat s = Ended.
Proof. eexists. split; [vm_compute; reflexivity|]. split; [|split]; vm_compute; reflexivity. Qed.

(** C75 finding: an answer that cannot be unpickled in the caller's process has the same effect: the
    caller waits for ever and the session ends. *)
Theorem C75_unreadable_answer_strands_the_caller_refuted (loads : bytes -> option nat) p :
  loads p = None -> length p = 2 ->
  exists es s, steps nat loads (fun _ => true) (fun _ => true) (start nat) es = Some s /\
    es = [Call SettingsSnapshot; Take false; Up 1; Serve (APickled p); Down 11; Respond] /\
    stranded nat loads (fun _ => true) (fun _ => true) s 0.
Proof.
  intros L E. destruct p as [|a [|b [|c p]]]; try discriminate.
  assert (H : exists s, steps nat loads (fun _ => true) (fun _ => true) (start nat)
    [Call SettingsSnapshot; Take false; Up 1; Serve (APickled [a; b]); Down 11] = Some s /\
    loop nat s = Busy 0 PICKLED /\ stands nat s 0 (Pending nat) /\ queue nat s = [] /\
    run (read_response nat loads PICKLED) (cbuf nat s) = StreamModel.Failed).
  { let r := eval vm_compute in (steps nat loads (fun _ => true) (fun _ => true) (start nat)
      [Call SettingsSnapshot; Take false; Up 1; Serve (APickled [a; b]); Down 11]) in
    match r with Some ?s => exists s end.
    split; [vm_compute; reflexivity|]. split; [reflexivity|]. split; [reflexivity|]. split; [reflexivity|].
    vm_compute. rewrite L. reflexivity. }
  destruct H as [s [H1 [H2 [H3 [H4 H5]]]]].
  eexists. exists (end_loop nat s). split; [|split; [reflexivity|]].
  - change ([Call SettingsSnapshot; Take false; Up 1; Serve (APickled [a; b]); Down 11; Respond])
      with ([Call SettingsSnapshot; Take false; Up 1; Serve (APickled [a; b]); Down 11] ++ [Respond]).
    rewrite steps_app, H1. cbn [steps step]. rewrite H2, H5. reflexivity.
  - apply stuck; [reflexivity|]. unfold stands, end_loop in *. cbn [outs]. rewrite H4. exact H3.
Qed.

Print Assumptions C75_executed_in_order.
Print Assumptions C75_own_answer.
Print Assumptions C75_connect.
Print Assumptions C75_disconnect_register.
Print Assumptions C75_queries.
Print Assumptions C75_settled_once.
Print Assumptions C75_failed_not_executed.
Print Assumptions C75_settles.
Print Assumptions C75_after_the_end.
Print Assumptions C75_orderly_close.
Print Assumptions C75_stopped_server_strands_a_query_refuted.
Print Assumptions C75_bad_name_ends_the_session_refuted.
Print Assumptions C75_unreadable_answer_strands_the_caller_refuted.
