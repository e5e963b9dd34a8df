(** Proofs about SessionModel. *)
From Coq Require Import List NArith Arith Bool Lia.
From Coq Require Import Strings.Byte.
From Verif Require Import CodecModel CodecProofs StreamModel StreamProofs SessionModel.
Import ListNotations.

(* ---- lists of outcomes ---- *)

Section Outs.
Context {V : Type}.
Notation outcome := (outcome V).

Lemma length_set_out (l : list outcome) j o : length (set_out V l j o) = length l.
Proof. revert j. induction l as [|[|r| |] l IH]; intros [|j]; cbn; auto. Qed.

Lemma set_out_neq (l : list outcome) j o i : i <> j -> nth_error (set_out V l j o) i = nth_error l i.
Proof.
  revert j i. induction l as [|x l IH]; intros [|j] [|i] H; cbn; try reflexivity; try congruence.
  - destruct x; reflexivity.
  - destruct x; reflexivity.
  - destruct x; cbn; apply IH; congruence.
Qed.

Lemma set_out_eq (l : list outcome) j o : nth_error (set_out V l j o) j =
  match nth_error l j with Some (Pending _) => Some o | x => x end.
Proof.
  revert j. induction l as [|x l IH]; intros [|j]; cbn; try reflexivity.
  - destruct x; reflexivity.
  - destruct x; cbn; apply IH.
Qed.

Lemma set_out_cases (l : list outcome) j o i x : nth_error (set_out V l j o) i = Some x ->
  nth_error l i = Some x \/ (i = j /\ x = o /\ nth_error l i = Some (Pending _)).
Proof.
  destruct (Nat.eq_dec i j) as [->|N].
  - rewrite set_out_eq. destruct (nth_error l j) as [[|r| |]|] eqn:E; intros H; auto. injection H as <-. auto.
  - rewrite set_out_neq by assumption. auto.
Qed.

(** What [end_loop] does to the outcomes. *)
Definition fail_all (q : list (option (nat * session_command))) (l : list outcome) : list outcome :=
  fold_left (fun o q => match q with Some (j, _) => set_out V o j (Failed V) | None => o end) q l.

Lemma length_fail_all q l : length (fail_all q l) = length l.
Proof.
  revert l. induction q as [|[[j c]|] q IH]; intros l; cbn; [reflexivity| |].
  - fold (fail_all q (set_out V l j (Failed V))). now rewrite IH, length_set_out.
  - apply IH.
Qed.

Lemma fail_all_cases q : forall l i x, nth_error (fail_all q l) i = Some x ->
  nth_error l i = Some x \/ (x = Failed V /\ nth_error l i = Some (Pending _) /\ exists c, In (Some (i, c)) q).
Proof.
  induction q as [|[[j c]|] q IH]; intros l i x H; cbn in H; [auto| |].
  - fold (fail_all q (set_out V l j (Failed V))) in H. destruct (IH _ _ _ H) as [K|[-> [K [c' I]]]].
    + apply set_out_cases in K as [K|[-> [-> K]]]; [auto|]. right. split; [reflexivity|]. split; [exact K|]. exists c. now left.
    + apply set_out_cases in K as [K|[-> [K _]]]; [|discriminate]. right. split; [reflexivity|]. split; [exact K|]. exists c'. now right.
  - fold (fail_all q l) in H. destruct (IH _ _ _ H) as [K|[-> [K [c' I]]]]; [auto|].
    right. split; [reflexivity|]. split; [exact K|]. exists c'. now right.
Qed.

(** None of those in the queue is pending afterwards. *)
Lemma fail_all_done q : forall l i c, In (Some (i, c)) q -> nth_error (fail_all q l) i <> Some (Pending V).
Proof.
  induction q as [|[[j c']|] q IH]; intros l i c; cbn; [intros []| |].
  - fold (fail_all q (set_out V l j (Failed V))). intros [H|H]; [|now apply (IH _ _ c)].
    injection H as <- <-. intros K. apply fail_all_cases in K as [K|[K _]]; [|discriminate].
    rewrite set_out_eq in K. destruct (nth_error l j) as [[| | |]|]; discriminate.
  - fold (fail_all q l). intros [H|H]; [discriminate|now apply (IH _ _ c)].
Qed.
End Outs.

(* ---- the byte formats ---- *)

Section Session.
Variable V : Type.
Variable loads : bytes -> option V.
Variable int_ok float_ok : pystr -> bool.
Notation read_request := (read_request int_ok float_ok).
Notation read_response := (read_response V loads).
Notation step := (step V loads int_ok float_ok).
Notation steps := (steps V loads int_ok float_ok).
Notation session := (session V).

Lemma command_of_byte c : command_of_bytes [command_byte c] = Some c.
Proof. destruct (command_value_some c) as [b [E ->]]. now apply command_of_bytes_value. Qed.

Definition acceptable (c : call) : bool :=
  match c with SettingsEvents a => int_ok a | ProcessRequest _ _ t _ => float_ok t | _ => true end.

Lemma run_cmd {A} (k : bytes -> reader A) c rest : run (ReadN 1 k) (command_byte c :: rest) = run (k [command_byte c]) rest.
Proof. exact (run_read_n 1 k [command_byte c] rest eq_refl). Qed.

Lemma run_short {A} n (k : bytes -> reader A) b : length b < n -> run (ReadN n k) b = Blocked (ReadN n k) b.
Proof. intros H. cbn [run]. destruct (Nat.leb_spec n (length b)); [lia|reflexivity]. Qed.

Lemma run_read_int_nil : run read_int [] = Blocked read_int [].
Proof. reflexivity. Qed.

Lemma run_read_str_nil {A} (f : pystr -> reader A) : exists r, run (bind read_str f) [] = Blocked r [].
Proof. unfold read_str. rewrite !run_bind, run_read_int_nil. eexists. reflexivity. Qed.

Lemma write_args1 a b ok : write_args [a] = (b, ok) ->
  (ok = true /\ encode_str a = Some b) \/ (ok = false /\ b = []).
Proof.
  cbn. destruct (encode_str a) as [x|]; intros H; injection H as <- <-; [left|right]; auto. now rewrite app_nil_r.
Qed.

Lemma write_args2 a1 a2 b ok : write_args [a1; a2] = (b, ok) ->
  (ok = true /\ exists b1 b2, encode_str a1 = Some b1 /\ encode_str a2 = Some b2 /\ b = b1 ++ b2) \/
  (ok = false /\ (b = [] \/ encode_str a1 = Some b)).
Proof.
  cbn. destruct (encode_str a1) as [x|]; [|intros H; injection H as <- <-; right; auto].
  destruct (encode_str a2) as [y|]; intros H; injection H as <- <-.
  - left. split; [reflexivity|]. exists x, y. now rewrite app_nil_r.
  - right. split; [reflexivity|]. right. now rewrite app_nil_r.
Qed.

Lemma write_args3 a1 a2 a3 b ok : write_args [a1; a2; a3] = (b, ok) ->
  (ok = true /\ exists b1 b2 b3, encode_str a1 = Some b1 /\ encode_str a2 = Some b2 /\ encode_str a3 = Some b3 /\ b = b1 ++ b2 ++ b3) \/
  (ok = false /\ (b = [] \/ encode_str a1 = Some b \/ exists b1 b2, encode_str a1 = Some b1 /\ encode_str a2 = Some b2 /\ b = b1 ++ b2)).
Proof.
  cbn. destruct (encode_str a1) as [x|]; [|intros H; injection H as <- <-; right; auto].
  destruct (encode_str a2) as [y|].
  - destruct (encode_str a3) as [z|]; intros H; injection H as <- <-.
    + left. split; [reflexivity|]. exists x, y, z. now rewrite app_nil_r.
    + right. split; [reflexivity|]. right. right. exists x, y. now rewrite app_nil_r.
  - intros H; injection H as <- <-. right. split; [reflexivity|]. right. left. now rewrite app_nil_r.
Qed.

(** A request that is written is read as the same request, or refused. *)
Lemma request_roundtrip c b : write_command (command_of c) = (b, true) ->
  run read_request b = if acceptable c then Done (Some c) [] else StreamModel.Failed.
Proof.
  unfold write_command. destruct c as [f t|f t| |p| | |a|u op t p]; cbn [command_of sc_args sc_payload sc_op acceptable].
  - destruct (write_args [f; t]) as [x ok] eqn:W. apply write_args2 in W as [[-> [b1 [b2 [E1 [E2 ->]]]]]|[-> _]]; [|discriminate].
    intros H. injection H as <-. unfold read_request. rewrite run_cmd, command_of_byte.
    rewrite run_bind, (run_read_str _ _ _ E1), run_bind, <- (app_nil_r b2), (run_read_str _ _ _ E2). reflexivity.
  - destruct (write_args [f; t]) as [x ok] eqn:W. apply write_args2 in W as [[-> [b1 [b2 [E1 [E2 ->]]]]]|[-> _]]; [|discriminate].
    intros H. injection H as <-. unfold read_request. rewrite run_cmd, command_of_byte.
    rewrite run_bind, (run_read_str _ _ _ E1), run_bind, <- (app_nil_r b2), (run_read_str _ _ _ E2). reflexivity.
  - cbn. intros H. injection H as <-. reflexivity.
  - cbn [write_args negb]. destruct (uint64_to_bytes (N.of_nat (length p))) as [n|] eqn:E; [|discriminate].
    intros H. injection H as <-. cbn [app]. unfold read_request. rewrite run_cmd, command_of_byte.
    rewrite run_bind, (run_read_int _ _ _ E), Nnat.Nat2N.id, <- (app_nil_r p), run_read_n by (now rewrite app_nil_r).
    now rewrite app_nil_r.
  - cbn. intros H. injection H as <-. reflexivity.
  - cbn. intros H. injection H as <-. reflexivity.
  - destruct (write_args [a]) as [x ok] eqn:W. apply write_args1 in W as [[-> E]|[-> _]]; [|discriminate].
    intros H. injection H as <-. unfold read_request. rewrite run_cmd, command_of_byte.
    rewrite run_bind, <- (app_nil_r x), (run_read_str _ _ _ E). now destruct (int_ok a).
  - destruct (write_args [u; op; t]) as [x ok] eqn:W.
    apply write_args3 in W as [[-> [b1 [b2 [b3 [E1 [E2 [E3 ->]]]]]]]|[-> _]]; [|discriminate]. cbn [negb].
    destruct (uint64_to_bytes (N.of_nat (length p))) as [n|] eqn:E; [|discriminate].
    intros H. injection H as <-. unfold read_request. rewrite run_cmd, command_of_byte, <- !app_assoc.
    rewrite run_bind, (run_read_str _ _ _ E1), run_bind, (run_read_str _ _ _ E2), run_bind, (run_read_str _ _ _ E3).
    destruct (float_ok t); [|reflexivity].
    rewrite run_bind, (run_read_int _ _ _ E), Nnat.Nat2N.id, <- (app_nil_r p), run_read_n by (now rewrite app_nil_r).
    now rewrite app_nil_r.
Qed.

(** A request that could not be written whole is not read as a request. *)
Lemma request_partial c b : write_command (command_of c) = (b, false) -> forall a rest, run read_request b <> Done a rest.
Proof.
  assert (S1 : forall (f : pystr -> reader (option call)) a rest, run (bind read_str f) [] <> Done a rest).
  { intros f a rest. destruct (run_read_str_nil f) as [r ->]. discriminate. }
  unfold write_command. destruct c as [f t|f t| |p| | |a|u op t p]; cbn [command_of sc_args sc_payload sc_op].
  - destruct (write_args [f; t]) as [x ok] eqn:W. apply write_args2 in W as [[-> _]|[-> [->|E]]]; [discriminate| |];
      intros H; injection H as <-; intros a rest; unfold read_request; rewrite run_cmd, command_of_byte; [apply S1|].
    rewrite run_bind, <- (app_nil_r x), (run_read_str _ _ _ E). apply S1.
  - destruct (write_args [f; t]) as [x ok] eqn:W. apply write_args2 in W as [[-> _]|[-> [->|E]]]; [discriminate| |];
      intros H; injection H as <-; intros a rest; unfold read_request; rewrite run_cmd, command_of_byte; [apply S1|].
    rewrite run_bind, <- (app_nil_r x), (run_read_str _ _ _ E). apply S1.
  - discriminate.
  - cbn [write_args negb]. destruct (uint64_to_bytes (N.of_nat (length p))) as [n|] eqn:E; [discriminate|].
    intros H. injection H as <-. intros a rest. unfold read_request. rewrite run_cmd, command_of_byte, run_bind, run_read_int_nil. discriminate.
  - discriminate.
  - discriminate.
  - destruct (write_args [a]) as [x ok] eqn:W. apply write_args1 in W as [[-> E]|[-> ->]]; [discriminate|].
    intros H. injection H as <-. intros a' rest. unfold read_request. rewrite run_cmd, command_of_byte. apply S1.
  - destruct (write_args [u; op; t]) as [x ok] eqn:W.
    apply write_args3 in W as [[-> [b1 [b2 [b3 [E1 [E2 [E3 ->]]]]]]]|[-> [->|[E|[b1 [b2 [E1 [E2 ->]]]]]]]]; cbn [negb].
    + destruct (uint64_to_bytes (N.of_nat (length p))) as [n|] eqn:E; [discriminate|].
      intros H. injection H as <-. intros a rest. unfold read_request. rewrite run_cmd, command_of_byte.
      rewrite <- (app_nil_r (b1 ++ b2 ++ b3)), <- !app_assoc.
      rewrite run_bind, (run_read_str _ _ _ E1), run_bind, (run_read_str _ _ _ E2), run_bind, (run_read_str _ _ _ E3).
      destruct (float_ok t); [|discriminate]. rewrite run_bind, run_read_int_nil. discriminate.
    + intros H. injection H as <-. intros a rest. unfold read_request. rewrite run_cmd, command_of_byte. apply S1.
    + intros H. injection H as <-. intros a rest. unfold read_request. rewrite run_cmd, command_of_byte.
      rewrite run_bind, <- (app_nil_r x), (run_read_str _ _ _ E). apply S1.
    + intros H. injection H as <-. intros a rest. unfold read_request. rewrite run_cmd, command_of_byte.
      rewrite <- (app_nil_r (b1 ++ b2)), <- !app_assoc.
      rewrite run_bind, (run_read_str _ _ _ E1), run_bind, (run_read_str _ _ _ E2). apply S1.
Qed.

(** What arrives is the beginning of a request: it is read only if it is the whole. *)
Lemma request_prefix c p q ok a rest : write_command (command_of c) = (p ++ q, ok) ->
  run read_request p = Done a rest -> ok = true /\ q = [] /\ rest = [] /\ a = Some c /\ acceptable c = true.
Proof.
  intros W R. pose proof (run_app read_request p q) as A. rewrite R in A. destruct ok.
  - rewrite (request_roundtrip _ _ W) in A. destruct (acceptable c); [|discriminate]. injection A as <- A.
    symmetry in A. apply app_eq_nil in A as [-> ->]. auto.
  - exfalso. exact (request_partial _ _ W _ _ A).
Qed.

(** What a response is of an answer. *)
Definition received (a : answer) (r : response V) : Prop :=
  match a, r with
  | AByte c, RByte _ b => b = [command_byte c]
  | APickled p, RValue _ v => loads p = Some v
  | _, _ => False
  end.

Lemma answer_roundtrip c a b : fits c a = true -> write_answer a = Some b ->
  (exists r, received a r /\ run (read_response (sc_kind (command_of c))) b = Done r []) \/
  run (read_response (sc_kind (command_of c))) b = StreamModel.Failed.
Proof.
  destruct a as [x|p]; cbn [write_answer].
  - intros F H. injection H as <-.
    assert (K : sc_kind (command_of c) = BYTE) by (destruct c; cbn in *; try discriminate; reflexivity).
    rewrite K. left. exists (RByte V [command_byte x]). split; reflexivity.
  - intros F. assert (K : sc_kind (command_of c) = PICKLED) by (destruct c as [ | | | | | | | ]; cbn in *; try discriminate; reflexivity).
    rewrite K. destruct (uint64_to_bytes (N.of_nat (length p))) as [n|] eqn:E; [|discriminate].
    intros H. injection H as <-. unfold read_response. rewrite run_bind, (run_read_int _ _ _ E), Nnat.Nat2N.id.
    rewrite run_read_n by reflexivity. rewrite run_cmd. destruct (list_eq_dec _ _ _) as [_|N]; [|congruence].
    destruct (loads p) as [v|] eqn:L; [left; exists (RValue V v); split; [exact L|reflexivity]|right; reflexivity].
Qed.

Lemma answer_prefix c a p q r rest : fits c a = true -> write_answer a = Some (p ++ q) ->
  run (read_response (sc_kind (command_of c))) p = Done r rest -> q = [] /\ rest = [] /\ received a r.
Proof.
  intros F W R. pose proof (run_app (read_response (sc_kind (command_of c))) p q) as A. rewrite R in A.
  destruct (answer_roundtrip _ _ _ F W) as [[r' [X Y]]|Y]; rewrite Y in A; [|discriminate].
  injection A as <- A. symmetry in A. apply app_eq_nil in A as [-> ->]. auto.
Qed.

(* ---- the invariant ---- *)

(** The calls that wait in the queue are the calls from the [k]-th on. *)
Definition queued (s : session) (k : nat) : Prop :=
  k <= length (calls V s) /\
  (forall j c, In (Some (j, c)) (queue V s) -> k <= j /\ exists d, nth_error (calls V s) j = Some d /\ c = command_of d) /\
  (forall j d, k <= j -> nth_error (calls V s) j = Some d -> In (Some (j, command_of d)) (queue V s)) /\
  (forall q1 j c q2, queue V s = q1 ++ Some (j, c) :: q2 -> j = k + length (filter (fun q => match q with Some _ => true | None => false end) q1)).

(** What is under way when the call [j] is being dealt with. *)
Inductive under_way (s : session) (j : nat) (k : response_kind) : Prop :=
| NotYet c : nth_error (calls V s) j = Some c -> k = sc_kind (command_of c) -> length (executed V s) = j -> srv V s = true ->
    write_command (command_of c) = (sbuf V s ++ up V s, true) -> cbuf V s = [] -> down V s = [] -> under_way s j k
| Answered c a : nth_error (executed V s) j = Some (c, a) -> k = sc_kind (command_of c) -> length (executed V s) = S j -> fits c a = true ->
    write_answer a = Some (cbuf V s ++ down V s) -> (srv V s = true -> sbuf V s = [] /\ up V s = []) -> under_way s j k
| Lost c : nth_error (calls V s) j = Some c -> k = sc_kind (command_of c) -> length (executed V s) <= j -> srv V s = false ->
    cbuf V s = [] -> down V s = [] -> under_way s j k.

Definition loop_ok (s : session) : Prop :=
  match loop V s with
  | Idle => exists k, queued s k /\ (forall i, i < k -> nth_error (outs V s) i <> Some (Pending V)) /\
      (forall i, nth_error (outs V s) i <> Some (Failed V)) /\
      length (executed V s) <= k /\ cbuf V s = [] /\ down V s = [] /\
      (srv V s = true -> length (executed V s) = k /\ sbuf V s = [] /\ up V s = [])
  | Busy j k => queued s (S j) /\ (forall i, i < j -> nth_error (outs V s) i <> Some (Pending V)) /\
      (forall i, nth_error (outs V s) i <> Some (Failed V)) /\ under_way s j k
  | Ended => exists m, (forall i, nth_error (outs V s) i = Some (Failed V) -> m <= i) /\
      (forall i i', nth_error (outs V s) i = Some (Pending V) -> nth_error (outs V s) i' = Some (Pending V) -> i = i') /\
      length (executed V s) <= m /\
      (srv V s = true -> (sbuf V s = [] /\ up V s = []) \/
        (length (executed V s) < m /\ exists c ok, nth_error (calls V s) (length (executed V s)) = Some c /\
           write_command (command_of c) = (sbuf V s ++ up V s, ok)))
  end.

Definition Inv (s : session) : Prop :=
  length (outs V s) = length (calls V s) /\
  map fst (executed V s) = firstn (length (executed V s)) (calls V s) /\
  length (executed V s) <= length (calls V s) /\
  (forall c a, In (c, a) (executed V s) -> fits c a = true) /\
  (forall j r, nth_error (outs V s) j = Some (Got V r) ->
     (r = RByte V [] /\ srv V s = false /\ length (executed V s) <= j) \/ exists c a, nth_error (executed V s) j = Some (c, a) /\ received a r) /\
  loop_ok s.

Lemma Inv_start : Inv (start V).
Proof.
  split; [reflexivity|]. split; [reflexivity|]. split; [cbn; lia|]. split; [intros c a []|]. split; [intros [|j] r; discriminate|].
  exists 0. split; [|split; [intros i; lia|split; [intros [|i]; discriminate|cbn; repeat split; lia]]].
  split; [cbn; lia|]. split; [intros j c []|]. split; [intros [|j] d; discriminate|]. intros [|x q1] j c q2 H; discriminate.
Qed.

Lemma queued_call s c : forall k, queued s k ->
  queued (Session V (queue V s ++ [Some (length (calls V s), command_of c)]) (loop V s) (up V s) (sbuf V s) (srv V s)
            (down V s) (cbuf V s) (calls V s ++ [c]) (outs V s ++ [Pending V]) (executed V s)) k.
Proof.
  intros k [L [A [B C]]]. unfold queued. cbn [queue calls]. split; [rewrite app_length; cbn; lia|]. split; [|split].
  - intros j d H. apply in_app_iff in H as [H|[H|[]]].
    + destruct (A j d H) as [X [d' [Y Z]]]. split; [exact X|]. exists d'. split; [|exact Z].
      rewrite nth_error_app1; [exact Y|]. apply nth_error_Some. congruence.
    + injection H as <- <-. split; [exact L|]. exists c. split; [|reflexivity].
      rewrite nth_error_app2, Nat.sub_diag by lia. reflexivity.
  - intros j d X H. apply in_app_iff. destruct (Nat.lt_ge_cases j (length (calls V s))) as [LT|GE].
    + rewrite nth_error_app1 in H by exact LT. left. now apply B.
    + right. rewrite nth_error_app2 in H by exact GE. destruct (j - length (calls V s)) as [|n] eqn:E.
      * injection H as <-. left. f_equal. f_equal. lia.
      * cbn in H. destruct n; discriminate.
  - intros q1 j d q2 H. destruct q2 as [|x q2] using rev_ind.
    + apply app_inj_tail in H as [<- H]. injection H as <- <-.
      (* the length of the queue *)
      set (f := fun q : option (nat * session_command) => match q with Some _ => true | None => false end) in *.
      destruct (Nat.eq_dec (length (calls V s)) k) as [E|NE].
      * assert (filter f (queue V s) = []) as ->; [|cbn; lia].
        destruct (filter f (queue V s)) as [|x l] eqn:FE; [reflexivity|exfalso].
        assert (I : In x (filter f (queue V s))) by (rewrite FE; now left). apply filter_In in I as [I F].
        destruct x as [[i e]|]; [|discriminate]. destruct (A _ _ I) as [LE [d [Y _]]].
        assert (i < length (calls V s)) by (apply nth_error_Some; congruence). lia.
      * assert (LT : length (calls V s) - 1 < length (calls V s)) by lia.
        apply nth_error_Some in LT. destruct (nth_error (calls V s) (length (calls V s) - 1)) as [d|] eqn:D; [|congruence].
        assert (I : In (Some (length (calls V s) - 1, command_of d)) (queue V s)) by (apply B; [lia|exact D]).
        apply in_split in I as [l1 [l2 E]]. pose proof (C _ _ _ _ E) as P.
        assert (Z : filter f l2 = []).
        { destruct (filter f l2) as [|x l] eqn:FE; [reflexivity|exfalso].
          assert (I : In x (filter f l2)) by (rewrite FE; now left). apply filter_In in I as [I F].
          destruct x as [[i e]|]; [|discriminate]. apply in_split in I as [l3 [l4 E4]].
          assert (E5 : queue V s = (l1 ++ Some (length (calls V s) - 1, command_of d) :: l3) ++ Some (i, e) :: l4).
          { rewrite E, E4, <- app_assoc. reflexivity. }
          pose proof (C _ _ _ _ E5) as P5. rewrite filter_app, app_length in P5. cbn [filter f length] in P5.
          destruct (A i e) as [_ [d' [Y _]]]; [rewrite E5; apply in_app_iff; right; now left|].
          assert (i < length (calls V s)) by (apply nth_error_Some; congruence). lia. }
        rewrite E, filter_app, app_length. cbn [filter f length]. rewrite Z. cbn [length]. lia.
    + clear IHq2. change (q1 ++ Some (j, d) :: q2 ++ [x]) with (q1 ++ (Some (j, d) :: q2) ++ [x]) in H.
      rewrite app_assoc in H. apply app_inj_tail in H as [H _]. exact (C _ _ _ _ H).
Qed.

Lemma queued_close s k q1 : queued s k -> forall u, q1 = queue V s ++ [None] -> calls V u = calls V s -> queue V u = q1 -> queued u k.
Proof.
  intros [L [A [B C]]] u -> E1 E2. unfold queued. rewrite E1, E2. split; [exact L|]. split; [|split].
  - intros j c H. apply in_app_iff in H as [H|[H|[]]]; [now apply A|discriminate].
  - intros j d X H. apply in_app_iff. left. now apply B.
  - intros q1 j c q2 H. destruct q2 as [|x q2] using rev_ind.
    + apply app_inj_tail in H as [_ H]. discriminate.
    + clear IHq2. change (q1 ++ Some (j, c) :: q2 ++ [x]) with (q1 ++ (Some (j, c) :: q2) ++ [x]) in H.
      rewrite app_assoc in H. apply app_inj_tail in H as [H _]. exact (C _ _ _ _ H).
Qed.

Lemma queued_take s k j c q : queued s k -> queue V s = Some (j, c) :: q ->
  j = k /\ (exists d, nth_error (calls V s) k = Some d /\ c = command_of d) /\
  forall u, calls V u = calls V s -> queue V u = q -> queued u (S k).
Proof.
  intros [L [A [B C]]] E. assert (j = k) as -> by (specialize (C [] j c q E); cbn in C; lia).
  destruct (A k c) as [_ D]; [rewrite E; now left|]. split; [reflexivity|]. split; [exact D|].
  intros u E1 E2. unfold queued. rewrite E1, E2. destruct D as [d [D ->]].
  split; [apply nth_error_Some; congruence|]. split; [|split].
  - intros i e H. apply in_split in H as [l1 [l2 ->]].
    assert (X : queue V s = (Some (k, command_of d) :: l1) ++ Some (i, e) :: l2) by exact E.
    pose proof (C _ _ _ _ X) as P. cbn [filter length] in P. split; [lia|].
    apply (A i e). rewrite E. right. apply in_app_iff. right. now left.
  - intros i e LE H. assert (I : In (Some (i, command_of e)) (queue V s)) by (apply B; [lia|exact H]).
    rewrite E in I. destruct I as [I|I]; [injection I as I _; lia|exact I].
  - intros q1 i e q2 H. assert (X : queue V s = (Some (k, command_of d) :: q1) ++ Some (i, e) :: q2) by (rewrite E, H; reflexivity).
    pose proof (C _ _ _ _ X) as P. cbn [filter length] in P. lia.
Qed.

Lemma queued_same s k u : queued s k -> calls V u = calls V s -> queue V u = queue V s -> queued u k.
Proof. unfold queued. now intros H -> ->. Qed.

(** Ending the loop. *)
Lemma end_loop_ok s k :
  (forall i, k <= i -> i < length (calls V s) -> exists c, In (Some (i, c)) (queue V s)) ->
  (forall i c, In (Some (i, c)) (queue V s) -> k <= i) ->
  (forall i, nth_error (outs V s) i <> Some (Failed V)) ->
  length (outs V s) = length (calls V s) ->
  (forall i i', i < k -> i' < k -> nth_error (outs V s) i = Some (Pending V) -> nth_error (outs V s) i' = Some (Pending V) -> i = i') ->
  length (executed V s) <= k ->
  (srv V s = true -> (sbuf V s = [] /\ up V s = []) \/
        (length (executed V s) < k /\ exists c ok, nth_error (calls V s) (length (executed V s)) = Some c /\
           write_command (command_of c) = (sbuf V s ++ up V s, ok))) ->
  loop_ok (end_loop V s).
Proof.
  intros QA QB NF LO P L SR. unfold loop_ok, end_loop. cbn [loop outs executed srv sbuf up calls]. fold (@fail_all V (queue V s) (outs V s)).
  exists k. split; [|split; [|split; [exact L|exact SR]]].
  - intros i H. apply fail_all_cases in H as [H|[_ [_ [c H]]]]; [now apply NF in H|now apply QB in H].
  - assert (Y : forall i, nth_error (fail_all (queue V s) (outs V s)) i = Some (Pending V) -> i < k /\ nth_error (outs V s) i = Some (Pending V)).
    { intros i H. destruct (Nat.lt_ge_cases i k) as [LT|GE].
      - split; [exact LT|]. apply fail_all_cases in H as [H|[H _]]; [exact H|discriminate].
      - exfalso. assert (LI : i < length (calls V s)).
        { rewrite <- LO, <- (length_fail_all (queue V s) (outs V s)). apply nth_error_Some. congruence. }
        destruct (QA i GE LI) as [c I]. exact (fail_all_done _ _ _ _ I H). }
    intros i i' H H'. apply Y in H as [X1 X2]. apply Y in H' as [X3 X4]. now apply P.
Qed.

Lemma queued_all s k : queued s k ->
  (forall i, k <= i -> i < length (calls V s) -> exists c, In (Some (i, c)) (queue V s)) /\
  (forall i c, In (Some (i, c)) (queue V s) -> k <= i).
Proof.
  intros [_ [A [B _]]]. split.
  - intros i LE LT. apply nth_error_Some in LT. destruct (nth_error (calls V s) i) as [d|] eqn:E; [|congruence].
    exists (command_of d). now apply B.
  - intros i c H. now apply A in H.
Qed.

Lemma got_end_loop s : forall j r, nth_error (outs V (end_loop V s)) j = Some (Got V r) -> nth_error (outs V s) j = Some (Got V r).
Proof.
  intros j r H. unfold end_loop in H. cbn [outs] in H. fold (@fail_all V (queue V s) (outs V s)) in H.
  apply fail_all_cases in H as [H|[H _]]; [exact H|discriminate].
Qed.

Lemma Inv_end_loop s : 
  length (outs V s) = length (calls V s) ->
  map fst (executed V s) = firstn (length (executed V s)) (calls V s) ->
  length (executed V s) <= length (calls V s) ->
  (forall c a, In (c, a) (executed V s) -> fits c a = true) ->
  (forall j r, nth_error (outs V s) j = Some (Got V r) ->
     (r = RByte V [] /\ srv V s = false /\ length (executed V s) <= j) \/ exists c a, nth_error (executed V s) j = Some (c, a) /\ received a r) ->
  loop_ok (end_loop V s) -> Inv (end_loop V s).
Proof.
  intros A B C D E F. split.
  { unfold end_loop. cbn [outs calls]. fold (@fail_all V (queue V s) (outs V s)). now rewrite length_fail_all. }
  split; [exact B|]. split; [exact C|]. split; [exact D|]. split; [|exact F].
  intros j r H. apply got_end_loop in H. exact (E j r H).
Qed.

(** A loop that is dealing with a call can end. *)
Lemma end_busy s j k : Inv s -> loop V s = Busy j k -> Inv (end_loop V s).
Proof.
  intros [A [B [C [D [E F]]]]] LP. apply Inv_end_loop; auto. unfold loop_ok in F. rewrite LP in F.
  destruct F as [Q [P [NF U]]]. destruct (queued_all _ _ Q) as [Q1 Q2]. apply (end_loop_ok s (S j)); auto.
  - intros i i' LT LT' X X'. assert (N : forall x, x < j -> nth_error (outs V s) x <> Some (Pending V)) by exact P.
    destruct (Nat.eq_dec i j) as [->|NE]; [|exfalso; apply (N i); [lia|exact X]].
    destruct (Nat.eq_dec i' j) as [->|NE]; [reflexivity|exfalso; apply (N i'); [lia|exact X']].
  - destruct U as [c ? ? L|c a ? ? L|c ? ? L]; lia.
  - intros S. destruct U as [c N ? L ? W|c a ? ? L ? ? H|c ? ? L H]; [|left; auto|congruence].
    right. split; [lia|]. exists c, true. rewrite L. auto.
Qed.

Lemma end_idle s : Inv s -> loop V s = Idle -> Inv (end_loop V s).
Proof.
  intros [A [B [C [D [E F]]]]] LP. apply Inv_end_loop; auto. unfold loop_ok in F. rewrite LP in F.
  destruct F as [k [Q [P [NF [L [_ [_ S]]]]]]]. destruct (queued_all _ _ Q) as [Q1 Q2]. apply (end_loop_ok s k); auto.
  - intros i i' LT _ X. exfalso. exact (P i LT X).
  - intros X. left. destruct (S X) as [_ [Y Z]]. auto.
Qed.

Lemma firstn_S_nth (A : Type) (l : list A) : forall n x, nth_error l n = Some x -> firstn (S n) l = firstn n l ++ [x].
Proof.
  induction l as [|y l IH]; intros [|n] x H; try discriminate.
  - now injection H as ->.
  - change (y :: firstn (S n) l = y :: firstn n l ++ [x]). f_equal. now apply IH.
Qed.

Lemma Inv_step s e s' : Inv s -> step s e = Some s' -> Inv s'.
Proof.
  intros I H. pose proof I as I0. destruct I as [A [B [C [D [E F]]]]].
  destruct e as [c|j|  |lost|n|a| | | |n| | | | ]; cbn [step SessionModel.step] in H.
  - (* Call *)
    destruct (loop V s) as [|j k|] eqn:LP; injection H as <-.
    1,2: split; [cbn; rewrite !app_length; cbn; lia|];
      split; [cbn; rewrite B at 1; rewrite firstn_app; replace (length (executed V s) - length (calls V s)) with 0 by lia;
              cbn; now rewrite app_nil_r|];
      split; [cbn; rewrite app_length; lia|]; split; [exact D|]; split;
      [cbn [outs srv executed]; intros i r N; destruct (Nat.lt_ge_cases i (length (outs V s))) as [LT|GE];
        [rewrite nth_error_app1 in N by exact LT; now apply E
        |rewrite nth_error_app2 in N by exact GE; destruct (i - length (outs V s)) as [|[|x]]; discriminate]|].
    + unfold loop_ok in *. rewrite LP in F. cbn [loop]. destruct F as [k [Q [P [NF [L [X [Y Z]]]]]]].
      pose proof (queued_call s c k Q) as Q'. rewrite LP in Q'. exists k. split; [exact Q'|].
      cbn [outs executed cbuf down srv sbuf up]. destruct Q as [QL _].
      split; [|split; [|auto]].
      * intros i LT. rewrite nth_error_app1 by lia. now apply P.
      * intros i N. destruct (Nat.lt_ge_cases i (length (outs V s))) as [LT|GE];
          [rewrite nth_error_app1 in N by exact LT; now apply NF in N|].
        rewrite nth_error_app2 in N by exact GE. destruct (i - length (outs V s)) as [|[|x]]; discriminate.
    + unfold loop_ok in *. rewrite LP in F. cbn [loop]. destruct F as [Q [P [NF U]]].
      pose proof (queued_call s c (S j) Q) as Q'. rewrite LP in Q'. split; [exact Q'|]. destruct Q as [QL _].
      cbn [outs]. split; [|split].
      * intros i LT. rewrite nth_error_app1 by lia. now apply P.
      * intros i N. destruct (Nat.lt_ge_cases i (length (outs V s))) as [LT|GE];
          [rewrite nth_error_app1 in N by exact LT; now apply NF in N|].
        rewrite nth_error_app2 in N by exact GE. destruct (i - length (outs V s)) as [|[|x]]; discriminate.
      * destruct U as [d N K U1 U2 U3 U4 U5|d a N K U1 U2 U3 U4|d N K U1 U2 U3 U4].
        -- apply (NotYet _ _ _ d); cbn; auto. rewrite nth_error_app1 by lia. exact N.
        -- apply (Answered _ _ _ d a); cbn; auto.
        -- apply (Lost _ _ _ d); cbn; auto. rewrite nth_error_app1 by lia. exact N.
    + split; [cbn; rewrite !app_length; cbn; lia|].
      split; [cbn; rewrite B at 1; rewrite firstn_app; replace (length (executed V s) - length (calls V s)) with 0 by lia;
              cbn; now rewrite app_nil_r|].
      split; [cbn; rewrite app_length; lia|]. split; [exact D|]. split.
      * cbn [outs srv executed]. intros i r N. destruct (Nat.lt_ge_cases i (length (outs V s))) as [LT|GE].
        -- rewrite nth_error_app1 in N by exact LT. now apply E.
        -- rewrite nth_error_app2 in N by exact GE. destruct (i - length (outs V s)) as [|[|x]]; discriminate.
      * unfold loop_ok in *. rewrite LP in F. cbn [loop outs executed srv sbuf up calls]. destruct F as [m [M1 [M2 [M3 M4]]]].
        exists (Nat.min m (length (outs V s))). split; [|split; [|split]].
        -- intros i N. destruct (Nat.lt_ge_cases i (length (outs V s))) as [LT|GE]; [|lia].
           rewrite nth_error_app1 in N by exact LT. apply M1 in N. lia.
        -- assert (Y : forall i, nth_error (outs V s ++ [Failed V]) i = Some (Pending V) -> nth_error (outs V s) i = Some (Pending V)).
           { intros i N. destruct (Nat.lt_ge_cases i (length (outs V s))) as [LT|GE]; [now rewrite nth_error_app1 in N by exact LT|].
             rewrite nth_error_app2 in N by exact GE. destruct (i - length (outs V s)) as [|[|x]]; discriminate. }
           intros i i' X X'. apply M2; now apply Y.
        -- lia.
        -- intros S. destruct (M4 S) as [X|[X [d [ok [N W]]]]]; [now left|]. right.
           assert (length (executed V s) < length (calls V s)) by (apply nth_error_Some; congruence).
           split; [lia|]. exists d, ok. split; [|exact W]. rewrite nth_error_app1 by assumption. exact N.
  - (* Cancel *)
    injection H as <-.
    assert (ND : forall i, nth_error (set_out V (outs V s) j (Cancelled V)) i = Some (Pending V) -> nth_error (outs V s) i = Some (Pending V)).
    { intros i N. apply set_out_cases in N as [N|[_ [N _]]]; [exact N|discriminate]. }
    assert (NF' : forall i, nth_error (set_out V (outs V s) j (Cancelled V)) i = Some (Failed V) -> nth_error (outs V s) i = Some (Failed V)).
    { intros i N. apply set_out_cases in N as [N|[_ [N _]]]; [exact N|discriminate]. }
    split; [cbn; now rewrite length_set_out|]. split; [exact B|]. split; [exact C|]. split; [exact D|]. split.
    + cbn [outs srv executed]. intros i r N. apply set_out_cases in N as [N|[_ [N _]]]; [now apply E|discriminate].
    + unfold loop_ok in *. cbn [loop outs]. destruct (loop V s) as [|i k|].
      * destruct F as [k [Q [P [NF R]]]]. exists k. split; [eapply queued_same; [exact Q|reflexivity|reflexivity]|].
        split; [intros i LT N; exact (P i LT (ND i N))|]. split; [intros i N; exact (NF i (NF' i N))|]. exact R.
      * destruct F as [Q [P [NF U]]]. split; [eapply queued_same; [exact Q|reflexivity|reflexivity]|].
        split; [intros x LT N; exact (P x LT (ND x N))|]. split; [intros x N; exact (NF x (NF' x N))|].
        destruct U as [d N K U1 U2 U3 U4 U5|d a N K U1 U2 U3 U4|d N K U1 U2 U3 U4].
        -- apply (NotYet _ _ _ d); cbn; auto.
        -- apply (Answered _ _ _ d a); cbn; auto.
        -- apply (Lost _ _ _ d); cbn; auto.
      * destruct F as [m [M1 [M2 M3]]]. exists m. split; [intros x N; exact (M1 x (NF' x N))|].
        split; [intros x y N N'; exact (M2 x y (ND x N) (ND y N'))|exact M3].
  - (* Close *)
    injection H as <-. split; [exact A|]. split; [exact B|]. split; [exact C|]. split; [exact D|]. split; [exact E|].
    unfold loop_ok in *. cbn [loop outs]. destruct (loop V s) as [|i k|].
    + destruct F as [k [Q R]]. exists k. split; [eapply queued_close; [exact Q|reflexivity|reflexivity|reflexivity]|exact R].
    + destruct F as [Q [P [NF U]]]. split; [eapply queued_close; [exact Q|reflexivity|reflexivity|reflexivity]|].
      split; [exact P|]. split; [exact NF|].
      destruct U as [d N K U1 U2 U3 U4 U5|d a N K U1 U2 U3 U4|d N K U1 U2 U3 U4].
      -- apply (NotYet _ _ _ d); cbn; auto.
      -- apply (Answered _ _ _ d a); cbn; auto.
      -- apply (Lost _ _ _ d); cbn; auto.
    + exact F.
  - (* Take *)
    destruct (loop V s) as [|i k|] eqn:LP; [|discriminate|discriminate].
    destruct (queue V s) as [|[[j c]|] q] eqn:EQ; [discriminate| |].
    + unfold loop_ok in F. rewrite LP in F. destruct F as [k [Q [P [NF [L [X [Y Z]]]]]]].
      destruct (queued_take _ _ _ _ _ Q EQ) as [-> [[d [N ->]] Q']].
      destruct (write_command (command_of d)) as [b ok] eqn:W.
      set (s1 := Session V q (Busy k (sc_kind (command_of d))) (up V s ++ b) (sbuf V s) (srv V s) (down V s) (cbuf V s)
                   (calls V s) (outs V s) (executed V s)) in *.
      destruct ok.
      * assert (I1 : Inv s1).
        { split; [exact A|]. split; [exact B|]. split; [exact C|]. split; [exact D|]. split; [exact E|].
          unfold loop_ok. cbn [s1 loop]. split; [apply Q'; reflexivity|]. split; [exact P|]. split; [exact NF|].
          destruct (srv V s) eqn:SR.
          - destruct (Z eq_refl) as [Z1 [Z2 Z3]]. apply (NotYet _ _ _ d); cbn; auto; rewrite Z2, Z3; exact W.
          - apply (Lost _ _ _ d); cbn; auto. }
        destruct lost; cbn [andb negb] in H; injection H as <-; [exact (end_busy _ _ _ I1 eq_refl)|exact I1].
      * cbn [andb] in H. injection H as <-. apply Inv_end_loop; auto. specialize (Q' s1 eq_refl eq_refl).
        destruct (queued_all _ _ Q') as [Q1 Q2]. apply (end_loop_ok s1 (S k)); auto.
        -- cbn [s1 outs]. intros i i' LT LT' X1 X2.
           destruct (Nat.eq_dec i k) as [->|NE]; [|exfalso; apply (P i); [lia|exact X1]].
           destruct (Nat.eq_dec i' k) as [->|NE]; [reflexivity|exfalso; apply (P i'); [lia|exact X2]].
        -- cbn [s1 executed srv sbuf up calls]. intros SR. destruct (Z SR) as [Z1 [Z2 Z3]]. right. split; [lia|].
           exists d, false. rewrite Z1, Z2, Z3. auto.
    + injection H as <-. apply end_idle; [|reflexivity].
      split; [exact A|]. split; [exact B|]. split; [exact C|]. split; [exact D|]. split; [exact E|].
      unfold loop_ok in *. rewrite LP in F. cbn [loop]. destruct F as [k [Q R]]. exists k. split; [|exact R].
      destruct Q as [Q0 [Q1 [Q2 Q3]]]. unfold queued. cbn [queue calls]. split; [exact Q0|]. split; [|split].
      * intros j c H. apply Q1. rewrite EQ. now right.
      * intros j d LE N. specialize (Q2 j d LE N). rewrite EQ in Q2. destruct Q2 as [Q2|Q2]; [discriminate|exact Q2].
      * intros q1 j c q2 EH. subst q. exact (Q3 (None :: q1) j c q2 EQ).
  - (* Up *)
    destruct ((0 <? n) && (n <=? length (up V s))) eqn:G; [|discriminate]. injection H as <-.
    assert (EB : (sbuf V s ++ firstn n (up V s)) ++ skipn n (up V s) = sbuf V s ++ up V s).
    { now rewrite <- app_assoc, firstn_skipn. }
    assert (EN : up V s = [] -> sbuf V s = [] -> sbuf V s ++ firstn n (up V s) = [] /\ skipn n (up V s) = []).
    { intros -> ->. destruct n; auto. }
    split; [exact A|]. split; [exact B|]. split; [exact C|]. split; [exact D|]. split; [exact E|].
    unfold loop_ok in *. cbn [loop outs]. destruct (loop V s) as [|i k|].
    + destruct F as [k [Q [P [NF [L [X [Y Z]]]]]]]. exists k. split; [eapply queued_same; [exact Q|reflexivity|reflexivity]|].
      split; [exact P|]. split; [exact NF|]. split; [exact L|]. split; [exact X|]. split; [exact Y|].
      cbn [srv executed sbuf up]. intros SR. destruct (Z SR) as [Z1 [Z2 Z3]]. split; [exact Z1|]. now apply EN.
    + destruct F as [Q [P [NF U]]]. split; [eapply queued_same; [exact Q|reflexivity|reflexivity]|].
      split; [exact P|]. split; [exact NF|].
      destruct U as [d N K U1 U2 U3 U4 U5|d a N K U1 U2 U3 U4|d N K U1 U2 U3 U4].
      * apply (NotYet _ _ _ d); cbn [calls executed srv sbuf up cbuf down]; auto. rewrite EB. exact U3.
      * apply (Answered _ _ _ d a); cbn [calls executed srv sbuf up cbuf down]; auto.
        intros SR. destruct (U4 SR) as [V1 V2]. now apply EN.
      * apply (Lost _ _ _ d); cbn; auto.
    + destruct F as [m [M1 [M2 [M3 M4]]]]. exists m. split; [exact M1|]. split; [exact M2|]. split; [exact M3|].
      cbn [srv executed sbuf up calls]. intros SR. destruct (M4 SR) as [[X1 X2]|[X1 [d [ok [X2 X3]]]]].
      * left. now apply EN.
      * right. split; [exact X1|]. exists d, ok. rewrite EB. auto.
  - (* Serve *)
    destruct (srv V s) eqn:SR; [|discriminate].
    destruct (run read_request (sbuf V s)) as [[c|] rest| |] eqn:RR; try discriminate.
    destruct (fits c a) eqn:FI; [|discriminate]. destruct (write_answer a) as [b|] eqn:WA; [|discriminate].
    injection H as <-.
    (* the request is the next call *)
    assert (EX : nth_error (calls V s) (length (executed V s)) = Some c /\ rest = [] /\ up V s = [] /\
                 (forall j k, loop V s = Busy j k -> j = length (executed V s) /\ k = sc_kind (command_of c) /\ cbuf V s = [] /\ down V s = []) /\
                 loop V s <> Idle /\ (loop V s = Ended -> exists m, length (executed V s) < m /\
                    (forall i, nth_error (outs V s) i = Some (Failed V) -> m <= i) /\
                    (forall i i', nth_error (outs V s) i = Some (Pending V) -> nth_error (outs V s) i' = Some (Pending V) -> i = i'))).
    { unfold loop_ok in F. destruct (loop V s) as [|j k|] eqn:LP.
      - exfalso. destruct F as [k [_ [_ [_ [_ [_ [_ Z]]]]]]]. destruct (Z SR) as [_ [Z2 _]]. rewrite Z2 in RR. cbn in RR. discriminate.
      - destruct F as [Q [P [NF U]]]. destruct U as [d N K U1 U2 U3 U4 U5|d a' N K U1 U2 U3 U4|d N K U1 U2 U3 U4].
        + destruct (request_prefix _ _ _ _ _ _ U3 RR) as [_ [-> [-> [X _]]]]. injection X as <-. rewrite U1.
          split; [exact N|]. split; [reflexivity|]. split; [reflexivity|].
          split; [intros j' k' X; injection X as <- <-; auto|]. split; [discriminate|discriminate].
        + exfalso. destruct (U4 SR) as [Z2 _]. rewrite Z2 in RR. cbn in RR. discriminate.
        + congruence.
      - destruct F as [m [M1 [M2 [M3 M4]]]]. destruct (M4 SR) as [[X1 X2]|[X1 [d [ok [X2 X3]]]]].
        + exfalso. rewrite X1 in RR. cbn in RR. discriminate.
        + destruct (request_prefix _ _ _ _ _ _ X3 RR) as [_ [-> [-> [X _]]]]. injection X as <-.
          split; [exact X2|]. split; [reflexivity|]. split; [reflexivity|]. split; [discriminate|]. split; [discriminate|].
          intros _. exists m. auto. }
    destruct EX as [NC [-> [EU [EBUSY [NI EE]]]]].
    assert (LT : length (executed V s) < length (calls V s)) by (apply nth_error_Some; congruence).
    split; [exact A|]. split; [|split; [|split; [|split]]]; cbn [executed calls outs srv].
    + rewrite map_app, app_length, B. cbn [map fst length]. rewrite Nat.add_1_r. symmetry. now apply firstn_S_nth.
    + rewrite app_length. cbn. lia.
    + intros c' a' I. apply in_app_iff in I as [I|[I|[]]]; [now apply D|congruence].
    + intros i r N. destruct (E i r N) as [[X [Y _]]|[c' [a' [X Y]]]]; [congruence|]. right. exists c', a'. split; [|exact Y].
      rewrite nth_error_app1; [exact X|]. apply nth_error_Some. congruence.
    + unfold loop_ok in *. cbn [loop outs executed srv sbuf up calls]. destruct (loop V s) as [|j k|] eqn:LP; [congruence| |].
      * destruct F as [Q [P [NF _]]]. destruct (EBUSY j k eq_refl) as [-> [-> [X1 X2]]].
        split; [eapply queued_same; [exact Q|reflexivity|reflexivity]|]. split; [exact P|]. split; [exact NF|].
        apply (Answered _ _ _ c a); cbn [executed cbuf down srv sbuf up]; auto.
        -- rewrite nth_error_app2, Nat.sub_diag by lia. reflexivity.
        -- rewrite app_length. cbn. lia.
        -- rewrite X1, X2. exact WA.
      * destruct (EE eq_refl) as [m [M1 [M2 M3]]]. exists m. split; [exact M2|]. split; [exact M3|].
        split; [rewrite app_length; cbn; lia|]. auto.
  - (* Ignore *)
    destruct (srv V s) eqn:SR; [|discriminate].
    destruct (run read_request (sbuf V s)) as [[c|] rest| |] eqn:RR; try discriminate. exfalso.
    unfold loop_ok in F. destruct (loop V s) as [|j k|] eqn:LP.
    + destruct F as [k [_ [_ [_ [_ [_ [_ Z]]]]]]]. destruct (Z SR) as [_ [Z2 _]]. rewrite Z2 in RR. discriminate.
    + destruct F as [Q [P [NF U]]]. destruct U as [d N K U1 U2 U3 U4 U5|d a' N K U1 U2 U3 U4|d N K U1 U2 U3 U4].
      * destruct (request_prefix _ _ _ _ _ _ U3 RR) as [_ [_ [_ [X _]]]]. discriminate.
      * destruct (U4 SR) as [Z2 _]. rewrite Z2 in RR. discriminate.
      * congruence.
    + destruct F as [m [M1 [M2 [M3 M4]]]]. destruct (M4 SR) as [[X1 X2]|[X1 [d [ok [X2 X3]]]]].
      * rewrite X1 in RR. discriminate.
      * destruct (request_prefix _ _ _ _ _ _ X3 RR) as [_ [_ [_ [X _]]]]. discriminate.
  - (* ServerRaises *)
    destruct (srv V s) eqn:SR; [|discriminate].
    destruct (run read_request (sbuf V s)) as [[c|] rest| |] eqn:RR; try discriminate.
    assert (HC : s' = close_srv V s) by congruence. subst s'. clear H RR. 
    assert (G : Inv (close_srv V s)); [|exact G].
    split; [exact A|]. split; [exact B|]. split; [exact C|]. split; [exact D|]. split.
    { intros i r N. destruct (E i r N) as [[X [Y Z]]|X]; [left; auto|now right]. }
    unfold loop_ok in *. cbn [close_srv loop outs]. destruct (loop V s) as [|i k|].
    + destruct F as [k [Q [P [NF [L [X [Y Z]]]]]]]. exists k. split; [eapply queued_same; [exact Q|reflexivity|reflexivity]|].
      cbn [close_srv executed cbuf down srv]. repeat (split; [assumption|]). discriminate.
    + destruct F as [Q [P [NF U]]]. split; [eapply queued_same; [exact Q|reflexivity|reflexivity]|].
      split; [exact P|]. split; [exact NF|].
      destruct U as [d N K U1 U2 U3 U4 U5|d a N K U1 U2 U3 U4|d N K U1 U2 U3 U4].
      * apply (Lost _ _ _ d); cbn; auto; lia.
      * apply (Answered _ _ _ d a); cbn; auto; discriminate.
      * apply (Lost _ _ _ d); cbn; auto.
    + destruct F as [m [M1 [M2 [M3 M4]]]]. exists m. cbn [close_srv executed srv]. repeat (split; [assumption|]). discriminate.
  - (* ServerCloses *)
    assert (HC : s' = close_srv V s) by congruence. subst s'. clear H.
    split; [exact A|]. split; [exact B|]. split; [exact C|]. split; [exact D|]. split.
    { intros i r N. destruct (E i r N) as [[X [Y Z]]|X]; [left; auto|now right]. }
    unfold loop_ok in *. cbn [close_srv loop outs]. destruct (loop V s) as [|i k|].
    + destruct F as [k [Q [P [NF [L [X [Y Z]]]]]]]. exists k. split; [eapply queued_same; [exact Q|reflexivity|reflexivity]|].
      cbn [close_srv executed cbuf down srv]. repeat (split; [assumption|]). discriminate.
    + destruct F as [Q [P [NF U]]]. split; [eapply queued_same; [exact Q|reflexivity|reflexivity]|].
      split; [exact P|]. split; [exact NF|].
      destruct U as [d N K U1 U2 U3 U4 U5|d a N K U1 U2 U3 U4|d N K U1 U2 U3 U4].
      * apply (Lost _ _ _ d); cbn; auto; lia.
      * apply (Answered _ _ _ d a); cbn; auto; discriminate.
      * apply (Lost _ _ _ d); cbn; auto.
    + destruct F as [m [M1 [M2 [M3 M4]]]]. exists m. cbn [close_srv executed srv]. repeat (split; [assumption|]). discriminate.
  - (* Down *)
    destruct ((0 <? n) && (n <=? length (down V s))) eqn:G; [|discriminate]. injection H as <-.
    assert (EB : (cbuf V s ++ firstn n (down V s)) ++ skipn n (down V s) = cbuf V s ++ down V s).
    { now rewrite <- app_assoc, firstn_skipn. }
    assert (EN : down V s = [] -> cbuf V s = [] -> cbuf V s ++ firstn n (down V s) = [] /\ skipn n (down V s) = []).
    { intros -> ->. destruct n; auto. }
    split; [exact A|]. split; [exact B|]. split; [exact C|]. split; [exact D|]. split; [exact E|].
    unfold loop_ok in *. cbn [loop outs]. destruct (loop V s) as [|i k|].
    + destruct F as [k [Q [P [NF [L [X [Y Z]]]]]]]. exists k. split; [eapply queued_same; [exact Q|reflexivity|reflexivity]|].
      split; [exact P|]. split; [exact NF|]. split; [exact L|]. cbn [cbuf down srv executed sbuf up].
      destruct (EN Y X) as [W1 W2]. split; [exact W1|]. split; [exact W2|]. exact Z.
    + destruct F as [Q [P [NF U]]]. split; [eapply queued_same; [exact Q|reflexivity|reflexivity]|].
      split; [exact P|]. split; [exact NF|].
      destruct U as [d N K U1 U2 U3 U4 U5|d a N K U1 U2 U3 U4|d N K U1 U2 U3 U4].
      * destruct (EN U5 U4). apply (NotYet _ _ _ d); cbn [calls executed srv sbuf up cbuf down]; auto.
      * apply (Answered _ _ _ d a); cbn [calls executed srv sbuf up cbuf down]; auto. rewrite EB. exact U3.
      * destruct (EN U4 U3). apply (Lost _ _ _ d); cbn [calls executed srv sbuf up cbuf down]; auto.
    + exact F.
  - (* Respond *)
    destruct (loop V s) as [|j k|] eqn:LP; try discriminate.
    destruct (run (read_response k) (cbuf V s)) as [r rest|x rest|] eqn:RR; [|discriminate|].
    2:{ assert (HC : s' = end_loop V s) by congruence. subst s'. exact (end_busy _ _ _ I0 LP). }
    assert (HC : s' = respond V j r rest s) by congruence. subst s'. clear H.
    unfold loop_ok in F. rewrite LP in F. destruct F as [Q [P [NF U]]].
    destruct U as [d N K U1 U2 U3 U4 U5|d a N K U1 U2 U3 U4|d N K U1 U2 U3 U4].
    1,3: exfalso; rewrite K in RR; try rewrite U4 in RR; try rewrite U3 in RR;
      destruct (sc_kind (command_of d)); cbn in RR; discriminate.
    rewrite K in RR. destruct (answer_prefix _ _ _ _ _ _ U2 U3 RR) as [W1 [W2 W3]].
    split; [cbn; now rewrite length_set_out|]. split; [exact B|]. split; [exact C|]. split; [exact D|]. split.
    + cbn [respond outs srv executed]. intros i r' X. apply set_out_cases in X as [X|[-> [X _]]]; [now apply E|].
      injection X as ->. right. exists d, a. auto.
    + unfold loop_ok. cbn [respond loop outs executed cbuf down srv sbuf up]. exists (S j).
      split; [eapply queued_same; [exact Q|reflexivity|reflexivity]|]. split; [|split; [|split; [lia|split; [exact W2|split; [exact W1|auto]]]]].
      * intros i LT X. destruct (Nat.eq_dec i j) as [->|NE].
        -- rewrite set_out_eq in X. destruct (nth_error (outs V s) j) as [[| | |]|]; discriminate.
        -- rewrite set_out_neq in X by assumption. apply (P i); [lia|exact X].
      * intros i X. apply set_out_cases in X as [X|[_ [X _]]]; [exact (NF i X)|discriminate].
  - (* Eof *)
    destruct (loop V s) as [|j k|] eqn:LP; try discriminate.
    destruct (srv V s) eqn:SR; [discriminate|]. destruct (down V s) eqn:DN; [|discriminate].
    destruct (run (read_response k) (cbuf V s)) as [r rest|x rest|] eqn:RR; try discriminate.
    destruct k.
    2:{ assert (HC : s' = end_loop V s) by congruence. subst s'. exact (end_busy _ _ _ I0 LP). }
    assert (HC : s' = respond V j (RByte V []) (cbuf V s) s) by congruence. subst s'. clear H.
    unfold loop_ok in F. rewrite LP in F. destruct F as [Q [P [NF U]]].
    destruct U as [d N K U1 U2 U3 U4 U5|d a N K U1 U2 U3 U4|d N K U1 U2 U3 U4]; [congruence| |].
    + exfalso. rewrite DN, app_nil_r in U3. destruct (answer_roundtrip _ _ _ U2 U3) as [[r [_ Y]]|Y]; rewrite <- K, RR in Y; discriminate.
    + split; [cbn; now rewrite length_set_out|]. split; [exact B|]. split; [exact C|]. split; [exact D|]. split.
      * cbn [respond outs srv executed]. intros i r' X. apply set_out_cases in X as [X|[-> [X _]]]; [now rewrite SR in *; apply E|].
        injection X as ->. left. auto.
      * unfold loop_ok. cbn [respond loop outs executed cbuf down srv sbuf up]. exists (S j).
        split; [eapply queued_same; [exact Q|reflexivity|reflexivity]|].
        split; [|split; [|split; [lia|split; [exact U3|split; [exact DN|intros X; congruence]]]]].
        -- intros i LT X. destruct (Nat.eq_dec i j) as [->|NE].
           ++ rewrite set_out_eq in X. destruct (nth_error (outs V s) j) as [[| | |]|]; discriminate.
           ++ rewrite set_out_neq in X by assumption. apply (P i); [lia|exact X].
        -- intros i X. apply set_out_cases in X as [X|[_ [X _]]]; [exact (NF i X)|discriminate].
  - (* ConnReset *)
    destruct (loop V s) as [|j k|] eqn:LP; try discriminate.
    assert (HC : s' = end_loop V s) by congruence. subst s'. exact (end_busy _ _ _ I0 LP).
  - (* LoopCancelled *)
    destruct (loop V s) as [|j k|] eqn:LP; try discriminate;
    assert (HC : s' = end_loop V s) by congruence; subst s'; [exact (end_idle _ I0 LP)|exact (end_busy _ _ _ I0 LP)].
Qed.

Lemma Inv_steps es : forall s s', Inv s -> steps s es = Some s' -> Inv s'.
Proof.
  induction es as [|e es IH]; intros s s' I H; cbn [SessionModel.steps] in H; [congruence|].
  destruct (step s e) as [s1|] eqn:E; [|discriminate]. apply (IH s1); [exact (Inv_step _ _ _ I E)|exact H].
Qed.

(* ---- progress ---- *)

(** Everything the loop, the network and the server do by themselves. *)
Definition internal (e : event) : bool :=
  match e with Call _ | Cancel _ | Close | ServerCloses => false | _ => true end.

Lemma progress s : Inv s -> loop V s <> Ended -> In (Pending V) (outs V s) ->
  (forall c, exists a, fits c a = true /\ write_answer a <> None) ->
  exists e s', internal e = true /\ e <> ConnReset /\ e <> LoopCancelled /\ e <> Take true /\ step s e = Some s'.
Proof.
  intros [A [B [C [D [E F]]]]] NE IN FIT. unfold loop_ok in F. destruct (loop V s) as [|j k|] eqn:LP; [| |congruence].
  - destruct F as [k [Q [P _]]]. apply In_nth_error in IN as [i N].
    destruct (Nat.lt_ge_cases i k) as [LT|GE]; [exfalso; exact (P i LT N)|].
    assert (LI : i < length (calls V s)) by (rewrite <- A; apply nth_error_Some; congruence).
    destruct (queued_all _ _ Q) as [Q1 _]. destruct (Q1 i GE LI) as [c I].
    destruct (queue V s) as [|x q] eqn:EQ; [destruct I|]. exists (Take false).
    cbn [SessionModel.step]. rewrite LP, EQ. destruct x as [[j d]|].
    + destruct (write_command d) as [b ok]. eexists. repeat (split; [first [reflexivity|discriminate]|]). reflexivity.
    + eexists. repeat (split; [first [reflexivity|discriminate]|]). reflexivity.
  - destruct F as [Q [P [NF U]]]. destruct U as [d N K U1 U2 U3 U4 U5|d a N K U1 U2 U3 U4|d N K U1 U2 U3 U4].
    + destruct (up V s) as [|x l] eqn:EU.
      * rewrite app_nil_r in U3. pose proof (request_roundtrip _ _ U3) as R. destruct (acceptable d).
        -- destruct (FIT d) as [a [F1 F2]]. destruct (write_answer a) as [b|] eqn:W; [|congruence].
           exists (Serve a). cbn [SessionModel.step]. rewrite U2, R, F1, W. eexists.
           repeat (split; [first [reflexivity|discriminate]|]). reflexivity.
        -- exists ServerRaises. cbn [SessionModel.step]. rewrite U2, R. eexists.
           repeat (split; [first [reflexivity|discriminate]|]). reflexivity.
      * exists (Up 1). cbn [SessionModel.step]. rewrite EU. cbn [length Nat.ltb Nat.leb andb]. eexists.
        repeat (split; [first [reflexivity|discriminate]|]). reflexivity.
    + destruct (down V s) as [|x l] eqn:ED.
      * rewrite app_nil_r in U3. exists Respond. cbn [SessionModel.step]. rewrite LP, K.
        destruct (answer_roundtrip _ _ _ U2 U3) as [[r [_ R]]|R]; rewrite R; eexists;
          repeat (split; [first [reflexivity|discriminate]|]); reflexivity.
      * exists (Down 1). cbn [SessionModel.step]. rewrite ED. cbn [length Nat.ltb Nat.leb andb]. eexists.
        repeat (split; [first [reflexivity|discriminate]|]). reflexivity.
    + exists Eof. cbn [SessionModel.step]. rewrite LP, U2, U4, U3.
      assert (RB : exists r, run (read_response k) [] = Blocked r []) by (destruct k; eexists; reflexivity).
      destruct RB as [r ->]. destruct k; eexists; repeat (split; [first [reflexivity|discriminate]|]); reflexivity.
Qed.

(* ---- termination ---- *)
Definition work (s : session) : nat :=
  4 * length (queue V s) + match loop V s with Idle => 1 | Busy _ _ => 3 | Ended => 0 end
  + (if srv V s then match sbuf V s ++ up V s with [] => 0 | _ => 1 end else 0).
Definition moving (s : session) : nat := length (up V s) + length (down V s).

Lemma served s a s' : Inv s -> step s (Serve a) = Some s' -> sbuf V s' = [] /\ up V s' = [].
Proof.
  intros [A [B [C [D [E F]]]]] H. cbn [SessionModel.step] in H. destruct (srv V s) eqn:SR; [|discriminate].
  destruct (run read_request (sbuf V s)) as [[c|] rest| |] eqn:RR; try discriminate.
  destruct (fits c a) eqn:FI; [|discriminate]. destruct (write_answer a) as [b|] eqn:WA; [|discriminate].
  injection H as <-. cbn [sbuf up].
  unfold loop_ok in F. destruct (loop V s) as [|j k|] eqn:LP.
  - exfalso. destruct F as [k [_ [_ [_ [_ [_ [_ Z]]]]]]]. destruct (Z SR) as [_ [Z2 _]]. rewrite Z2 in RR. cbn in RR. discriminate.
  - destruct F as [Q [P [NF U]]]. destruct U as [d N K U1 U2 U3 U4 U5|d a' N K U1 U2 U3 U4|d N K U1 U2 U3 U4].
    + destruct (request_prefix _ _ _ _ _ _ U3 RR) as [_ [-> [-> _]]]. auto.
    + exfalso. destruct (U4 SR) as [Z2 _]. rewrite Z2 in RR. cbn in RR. discriminate.
    + congruence.
  - destruct F as [m [M1 [M2 [M3 M4]]]]. destruct (M4 SR) as [[X1 X2]|[X1 [d [ok [X2 X3]]]]].
    + exfalso. rewrite X1 in RR. cbn in RR. discriminate.
    + destruct (request_prefix _ _ _ _ _ _ X3 RR) as [_ [-> [-> _]]]. auto.
Qed.

Lemma ignored s s' : Inv s -> step s Ignore <> Some s'.
Proof.
  intros [A [B [C [D [E F]]]]] H. cbn [SessionModel.step] in H. destruct (srv V s) eqn:SR; [|discriminate].
  destruct (run read_request (sbuf V s)) as [[c|] rest| |] eqn:RR; try discriminate.
  unfold loop_ok in F. destruct (loop V s) as [|j k|] eqn:LP.
  - destruct F as [k [_ [_ [_ [_ [_ [_ Z]]]]]]]. destruct (Z SR) as [_ [Z2 _]]. rewrite Z2 in RR. discriminate.
  - destruct F as [Q [P [NF U]]]. destruct U as [d N K U1 U2 U3 U4 U5|d a' N K U1 U2 U3 U4|d N K U1 U2 U3 U4].
    + destruct (request_prefix _ _ _ _ _ _ U3 RR) as [_ [_ [_ [X _]]]]. discriminate.
    + destruct (U4 SR) as [Z2 _]. rewrite Z2 in RR. discriminate.
    + congruence.
  - destruct F as [m [M1 [M2 [M3 M4]]]]. destruct (M4 SR) as [[X1 X2]|[X1 [d [ok [X2 X3]]]]].
    + rewrite X1 in RR. discriminate.
    + destruct (request_prefix _ _ _ _ _ _ X3 RR) as [_ [_ [_ [X _]]]]. discriminate.
Qed.

Lemma work_end s : work (end_loop V s) <= work s - match loop V s with Idle => 1 | Busy _ _ => 3 | Ended => 0 end - 4 * length (queue V s).
Proof. unfold work, end_loop. cbn [queue loop srv sbuf up length]. lia. Qed.

Lemma internal_step s e s' : Inv s -> internal e = true -> step s e = Some s' ->
  work s' < work s \/ (work s' = work s /\ moving s' < moving s).
Proof.
  intros I IT H. destruct e as [c|j|  |lost|n|a| | | |n| | | | ]; try discriminate.
  - cbn [SessionModel.step] in H. left. destruct (loop V s) as [|j k|] eqn:LP; [|discriminate|discriminate].
    destruct (queue V s) as [|[[j c]|] q] eqn:EQ; [discriminate| |].
    + destruct (write_command c) as [b ok].
      set (s1 := Session V q (Busy j (sc_kind c)) (up V s ++ b) (sbuf V s) (srv V s) (down V s) (cbuf V s)
                   (calls V s) (outs V s) (executed V s)) in *.
      assert (W1 : work s1 < work s).
      { unfold work. cbn [s1 queue loop srv sbuf up]. rewrite LP, EQ. cbn [length]. destruct (srv V s); [|lia].
        destruct (sbuf V s ++ up V s ++ b), (sbuf V s ++ up V s); lia. }
      injection H as <-. destruct (ok && negb lost); [exact W1|]. pose proof (work_end s1). lia.
    + injection H as <-. unfold work, end_loop. cbn [queue loop srv sbuf up]. rewrite LP, EQ. cbn [length]. lia.
  - cbn [SessionModel.step] in H. destruct ((0 <? n) && (n <=? length (up V s))) eqn:G; [|discriminate]. injection H as <-.
    apply andb_true_iff in G as [G1 G2]. apply Nat.ltb_lt in G1. apply Nat.leb_le in G2.
    right. unfold work, moving. cbn [queue loop srv sbuf up down]. rewrite <- app_assoc, firstn_skipn, skipn_length. lia.
  - left. destruct (served _ _ _ I H) as [X Y]. cbn [SessionModel.step] in H. destruct (srv V s) eqn:SR; [|discriminate].
    destruct (run read_request (sbuf V s)) as [[c|] rest| |] eqn:RR; try discriminate.
    destruct (fits c a); [|discriminate]. destruct (write_answer a) as [b|]; [|discriminate]. injection H as <-.
    cbn [sbuf up] in X, Y. unfold work. cbn [queue loop srv sbuf up]. rewrite SR, X, Y.
    destruct (sbuf V s) as [|x l] eqn:EB; [cbn in RR; discriminate|]. cbn. lia.
  - exfalso. exact (ignored _ _ I H).
  - left. cbn [SessionModel.step] in H. destruct (srv V s) eqn:SR; [|discriminate].
    destruct (run read_request (sbuf V s)) as [[c|] rest| |] eqn:RR; try discriminate.
    injection H as <-. unfold work, close_srv. cbn [queue loop srv sbuf up]. rewrite SR.
    destruct (sbuf V s) as [|x l] eqn:EB; [cbn in RR; discriminate|]. cbn. lia.
  - cbn [SessionModel.step] in H. destruct ((0 <? n) && (n <=? length (down V s))) eqn:G; [|discriminate]. injection H as <-.
    apply andb_true_iff in G as [G1 G2]. apply Nat.ltb_lt in G1. apply Nat.leb_le in G2.
    right. unfold work, moving. cbn [queue loop srv sbuf up down]. rewrite skipn_length. lia.
  - cbn [SessionModel.step] in H. left. destruct (loop V s) as [|j k|] eqn:LP; try discriminate.
    destruct (run (read_response k) (cbuf V s)) as [r rest| |] eqn:RR; try discriminate; injection H as <-.
    + unfold work, respond. cbn [queue loop srv sbuf up]. rewrite LP. lia.
    + pose proof (work_end s) as W. rewrite LP in W. unfold work at 2 in W. rewrite LP in W. unfold work at 2. rewrite LP. lia.
  - cbn [SessionModel.step] in H. left. destruct (loop V s) as [|j k|] eqn:LP; try discriminate.
    destruct (srv V s) eqn:SR; [discriminate|]. destruct (down V s) eqn:DN; [|discriminate].
    destruct (run (read_response k) (cbuf V s)) as [r rest|x rest|] eqn:RR; try discriminate.
    destruct k; injection H as <-.
    + unfold work, respond. cbn [queue loop srv sbuf up]. rewrite LP. lia.
    + pose proof (work_end s) as W. rewrite LP in W. unfold work at 2 in W. rewrite LP in W. unfold work at 2. rewrite LP. lia.
  - cbn [SessionModel.step] in H. left. destruct (loop V s) as [|j k|] eqn:LP; try discriminate. injection H as <-.
    pose proof (work_end s) as W. rewrite LP in W. unfold work at 2 in W. rewrite LP in W. unfold work at 2. rewrite LP. lia.
  - cbn [SessionModel.step] in H. left. destruct (loop V s) as [|j k|] eqn:LP; try discriminate; injection H as <-;
    pose proof (work_end s) as W; rewrite LP in W; unfold work at 2 in W; rewrite LP in W; unfold work at 2; rewrite LP; lia.
Qed.

Lemma no_infinite_run (f : nat -> session) (es : nat -> event) : Inv (f 0) ->
  (forall n, internal (es n) = true /\ step (f n) (es n) = Some (f (S n))) -> False.
Proof.
  intros I H.
  assert (AI : forall n, Inv (f n)).
  { induction n as [|n IH]; [exact I|]. destruct (H n) as [_ S]. exact (Inv_step _ _ _ IH S). }
  assert (X : forall w m n, work (f n) <= w -> moving (f n) <= m -> False).
  { induction w as [w IHw] using lt_wf_ind. induction m as [m IHm] using lt_wf_ind. intros n W M.
    destruct (H n) as [T ST]. destruct (internal_step _ _ _ (AI n) T ST) as [L|[L1 L2]].
    - apply (IHw (work (f (S n))) ltac:(lia) (moving (f (S n))) (S n)); lia.
    - apply (IHm (moving (f (S n))) ltac:(lia) (S n)); lia. }
  exact (X _ _ 0 (le_n _) (le_n _)).
Qed.
End Session.
