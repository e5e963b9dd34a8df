(* C51: the message queue unit is first in, first out, and bounded.
   C56: TerminateOnTotal terminates at the total. *)

From Coq Require Import List ZArith Bool Lia.
From Verif Require Import MsgQueueModel.
Import ListNotations.
Open Scope Z_scope.

(** ** C51 *)

(** The messages of a history (newest first), newest first. *)
Definition arrived {M} (h : list (event M)) : list M := flat_map (fun e => match e with Arrive m => [m] | _ => [] end) h.

(** [merge a b l]: l is a and b interleaved. *)
Inductive merge {A} : list A -> list A -> list A -> Prop :=
| merge_nil : merge [] [] []
| merge_l x a b l : merge a b l -> merge (x :: a) b (x :: l)
| merge_r x a b l : merge a b l -> merge a (x :: b) (x :: l).

Lemma merge_left {A} (a : list A) : merge a [] a.
Proof. induction a; constructor; assumption. Qed.

(** C51.  A queue that does not leak loses nothing and keeps the order: what has arrived is what has
    been sent, followed by what is queued, followed by the message that waits. *)
Theorem C51_lossless_and_in_order :
  forall M (c : settings) (h : list (event M)) q, leaky c = false \/ maxsize c <= 0 -> after c h q ->
    rev (arrived h) = rev (sent q) ++ items q ++ match waiting q with Some m => [m] | None => [] end /\ dropped q = [].
Proof.
  intros M c h q L A.
  assert (NL : leaks c = false).
  { unfold leaks. destruct (leaky c); [|reflexivity]. destruct L as [L|L]; [discriminate|]. apply Z.leb_le in L. rewrite L. reflexivity. }
  induction A as [|h q e q' A (IH & ID) S]; [split; reflexivity|]. destruct e as [m| |]; cbn [step] in S; unfold arrived in *; cbn [flat_map].
  - destruct (waiting q) eqn:W; [discriminate|]. rewrite NL in S. cbn [app]. cbn [rev]. rewrite IH.
    destruct (full c q); injection S as <-; cbn [items waiting sent dropped]; (split; [|exact ID]); rewrite <- !app_assoc; reflexivity.
  - destruct (waiting q) as [m|] eqn:W; [|discriminate]. destruct (full c q); [discriminate|]. injection S as <-. cbn [app items waiting sent dropped].
    rewrite IH. split; [rewrite <- !app_assoc, ?app_nil_r; reflexivity|exact ID].
  - destruct (items q) as [|m r] eqn:I; [discriminate|]. injection S as <-. cbn [app items waiting sent dropped rev]. rewrite IH.
    split; [rewrite <- app_assoc; reflexivity|exact ID].
Qed.
Print Assumptions C51_lossless_and_in_order.

(** C51.  A bounded queue never holds more than its maxsize. *)
Theorem C51_bounded :
  forall M (c : settings) (h : list (event M)) q, 0 < maxsize c -> after c h q -> Z.of_nat (length (items q)) <= maxsize c.
Proof.
  intros M c h q P A.
  assert (F : forall x : queue M, full c x = false -> Z.of_nat (length (items x)) < maxsize c).
  { intros x E. unfold full in E. apply andb_false_iff in E. destruct E as [E|E]; [apply Z.ltb_ge in E; lia|]. apply Z.leb_gt in E. lia. }
  induction A as [|h q e q' A IH S]; [cbn; lia|]. destruct e as [m| |]; cbn [step] in S.
  - destruct (waiting q); [discriminate|]. destruct (full c q) eqn:E.
    + destruct (leaks c); [|injection S as <-; exact IH]. destruct (items q) as [|o r]; [discriminate|]. injection S as <-.
      cbn [items length] in *. rewrite app_length. cbn [length]. lia.
    + specialize (F _ E). destruct (leaks c); injection S as <-; cbn [items]; rewrite app_length; cbn [length]; lia.
  - destruct (waiting q); [|discriminate]. destruct (full c q) eqn:E; [discriminate|]. specialize (F _ E). injection S as <-.
    cbn [items]. rewrite app_length. cbn [length]. lia.
  - destruct (items q) as [|m r]; [discriminate|]. injection S as <-. cbn [items length] in *. lia.
Qed.
Print Assumptions C51_bounded.

(** C51.  A leaky queue always holds the newest messages; those before them have been sent, in
    order, or dropped. *)
Theorem C51_leaky_drops_only_the_oldest :
  forall M (c : settings) (h : list (event M)) q, leaky c = true -> 0 < maxsize c -> after c h q ->
    exists gone, rev (arrived h) = gone ++ items q /\ merge (rev (sent q)) (rev (dropped q)) gone.
Proof.
  intros M c h q L P A.
  assert (LK : leaks c = true) by (unfold leaks; rewrite L; assert ((maxsize c <=? 0) = false) as -> by (apply Z.leb_gt; exact P); reflexivity).
  assert (ML : forall (a b : list M) l x, merge a b l -> merge (a ++ [x]) b (l ++ [x])) by (clear; induction 1; cbn; [apply merge_l; constructor|constructor; assumption|constructor; assumption]).
  assert (MR : forall (a b : list M) l x, merge a b l -> merge a (b ++ [x]) (l ++ [x])) by (clear; induction 1; cbn; [apply merge_r; constructor|constructor; assumption|constructor; assumption]).
  enough (G : waiting q = None /\ exists gone, rev (arrived h) = gone ++ items q /\ merge (rev (sent q)) (rev (dropped q)) gone) by apply G.
  induction A as [|h q e q' A (IW & gone & IE & IM) S]; [split; [reflexivity|]; exists []; split; [reflexivity|constructor]|].
  destruct e as [m| |]; cbn [step] in S; unfold arrived in *; cbn [flat_map app].
  - rewrite IW, LK in S. destruct (full c q).
    + destruct (items q) as [|o r]; [discriminate|]. injection S as <-. cbn [waiting sent items dropped rev]. split; [reflexivity|].
      exists (gone ++ [o]). split; [rewrite IE, <- !app_assoc; reflexivity|]. apply MR. exact IM.
    + injection S as <-. cbn [waiting sent items dropped rev]. split; [reflexivity|]. exists gone. split; [rewrite IE, app_assoc; reflexivity|exact IM].
  - rewrite IW in S. discriminate.
  - destruct (items q) as [|m r] eqn:E; [discriminate|]. injection S as <-. cbn [waiting sent items dropped rev]. split; [exact IW|].
    exists (gone ++ [m]). split; [rewrite IE, <- app_assoc; reflexivity|]. apply ML. exact IM.
Qed.
Print Assumptions C51_leaky_drops_only_the_oldest.

(** C51.  A message is dropped only when a message arrives at a queue that holds maxsize messages,
    and then it is one; and a leaky queue never makes the sender of a message wait. *)
Theorem C51_leaky_drops_only_when_full :
  forall M (c : settings) (h : list (event M)) q m, leaky c = true -> 0 < maxsize c -> after c h q ->
    exists q', step c q (Arrive m) = Some q' /\ waiting q' = None /\
      if Z.of_nat (length (items q)) <? maxsize c
      then dropped q' = dropped q /\ items q' = items q ++ [m]
      else Z.of_nat (length (items q)) = maxsize c /\ exists o r, items q = o :: r /\ dropped q' = o :: dropped q /\ items q' = r ++ [m].
Proof.
  intros M c h q m L P A. pose proof (C51_bounded M c h q P A) as B.
  assert (LK : leaks c = true) by (unfold leaks; rewrite L; assert ((maxsize c <=? 0) = false) as -> by (apply Z.leb_gt; exact P); reflexivity).
  assert (W : waiting q = None).
  { clear B. induction A as [|h q e q' A IW S]; [reflexivity|]. destruct e as [m'| |]; cbn [step] in S; rewrite ?IW, ?LK in S.
    - destruct (full c q); [destruct (items q); [discriminate|]|]; injection S as <-; reflexivity.
    - discriminate.
    - destruct (items q); [discriminate|]. injection S as <-. reflexivity. }
  cbn [step]. rewrite W, LK. unfold full. assert ((0 <? maxsize c) = true) as -> by (apply Z.ltb_lt; exact P). cbn [andb].
  destruct (Z.of_nat (length (items q)) <? maxsize c) eqn:E.
  - apply Z.ltb_lt in E. assert ((maxsize c <=? Z.of_nat (length (items q))) = false) as -> by (apply Z.leb_gt; exact E).
    eexists. split; [reflexivity|]. split; [reflexivity|]. split; reflexivity.
  - apply Z.ltb_ge in E. assert ((maxsize c <=? Z.of_nat (length (items q))) = true) as -> by (apply Z.leb_le; exact E).
    destruct (items q) as [|o r] eqn:I; [cbn in E; lia|]. eexists. split; [reflexivity|]. split; [reflexivity|]. split; [cbn [length] in *; lia|]. exists o, r. split; [reflexivity|]. split; reflexivity.
Qed.
Print Assumptions C51_leaky_drops_only_when_full.

(** C51.  Nothing gets stuck: while messages are queued one can be sent, and a message that waits
    can be put once one has been sent. *)
Theorem C51_progress :
  forall M (c : settings) (h : list (event M)) q, after c h q ->
    (items q <> [] -> exists q', step c q Send = Some q') /\
    (forall m, waiting q = Some m -> exists q1 q2, step c q Send = Some q1 /\ step c q1 Put = Some q2 \/ step c q Put = Some q2).
Proof.
  intros M c h q A.
  assert (S : forall x : queue M, items x <> [] -> exists q', step c x Send = Some q').
  { intros x N. cbn [step]. destruct (items x); [congruence|eauto]. }
  split; [apply S|]. intros m W. destruct (full c q) eqn:F.
  - assert (N : items q <> []) by (intros E; unfold full in F; rewrite E in F; apply andb_true_iff in F; destruct F as [F1 F2]; apply Z.ltb_lt in F1; apply Z.leb_le in F2; cbn in F2; lia).
    destruct (items q) as [|o r] eqn:I; [congruence|].
    assert (P : 0 < maxsize c) by (unfold full in F; apply andb_true_iff in F; destruct F as [F _]; apply Z.ltb_lt in F; exact F).
    pose proof (C51_bounded M c h q P A) as B. rewrite I in B. cbn [length] in B.
    exists (Queue r (Some m) (o :: sent q) (dropped q)). eexists. left. cbn [step]. rewrite I, W. split; [reflexivity|].
    cbn [waiting]. unfold full. cbn [items]. assert ((maxsize c <=? Z.of_nat (length r)) = false) as -> by (apply Z.leb_gt; lia).
    rewrite andb_false_r. reflexivity.
  - exists q. eexists. right. cbn [step]. rewrite W, F. reflexivity.
Qed.
Print Assumptions C51_progress.

Fixpoint run {M} (c : settings) (h : list (event M)) : option (queue M) :=
  match h with [] => Some initialize | e :: h => match run c h with Some g => step c g e | None => None end end.

Lemma run_after {M} c (h : list (event M)) : forall g, run c h = Some g -> after c h g.
Proof.
  induction h as [|e h IH]; intros g E; cbn [run] in E; [injection E as <-; constructor|].
  destruct (run c h) as [g0|]; [|discriminate]. eapply after_event; [apply IH; reflexivity|exact E].
Qed.

Example C51_case :
  (exists q, after (Settings 2 false) [Put; Send; Arrive 3; Arrive 2; Arrive 1]%nat q /\ items q = [2; 3]%nat /\ sent q = [1%nat]) /\
  (exists q, after (Settings 2 false) [Arrive 3; Arrive 2; Arrive 1]%nat q /\ waiting q = Some 3%nat) /\
  (exists q, after (Settings 2 true) [Arrive 4; Send; Arrive 3; Arrive 2; Arrive 1]%nat q /\ items q = [3; 4]%nat /\ sent q = [2%nat] /\ dropped q = [1%nat]) /\
  (exists q, after (Settings 0 true) [Arrive 3; Arrive 2; Arrive 1]%nat q /\ items q = [1; 2; 3]%nat).
Proof.
  split; [|split; [|split]].
  - eexists. split; [apply run_after; reflexivity|split; reflexivity].
  - eexists. split; [apply run_after; reflexivity|reflexivity].
  - eexists. split; [apply run_after; reflexivity|]. split; [reflexivity|]. split; reflexivity.
  - eexists. split; [apply run_after; reflexivity|reflexivity].
Qed.

(** C51 finding: the documentation of leaky says that new messages are dropped when the queue is
    full.  They are not: the new message is queued and the oldest dropped. *)
Theorem C51_leaky_drops_new_messages_refuted :
  exists c (h : list (event nat)) q q', leaky c = true /\ 0 < maxsize c /\ after c h q /\
    Z.of_nat (length (items q)) = maxsize c /\ step c q (Arrive 9%nat) = Some q' /\ In 9%nat (items q') /\ dropped q' = [1%nat].
Proof.
  exists (Settings 1 true), [Arrive 1%nat], (Queue [1%nat] None [] []), (Queue [9%nat] None [] [1%nat]). split; [reflexivity|]. split; [reflexivity|].
  split; [apply run_after; reflexivity|]. split; [reflexivity|]. split; [reflexivity|]. split; [left; reflexivity|reflexivity].
Qed.
Print Assumptions C51_leaky_drops_new_messages_refuted.

(** ** C56 *)

(** The number of messages among events, and the total that holds after them. *)
Definition count (es : list total_event) : Z := Z.of_nat (length (filter (fun e => match e with Message => true | _ => false end) es)).
Definition current (t : option Z) (es : list total_event) : option Z :=
  fold_left (fun t e => match e with NewTotal t' => t' | Message => t end) es t.

(** The number of messages has reached the total. *)
Definition reached (t : option Z) (es : list total_event) : Prop := exists n, current t es = Some n /\ n <= count es.

(** C56.  TerminateOnTotal terminates at the first event at which the number of messages received
    has reached the total then in force, and never if there is none. *)
Theorem C56_terminates_exactly_at_the_total :
  forall t es,
    (forall k, total_run (total_initialize t) es = Some k <->
       (1 <= k <= length es)%nat /\ reached t (firstn k es) /\ forall j, (1 <= j < k)%nat -> ~ reached t (firstn j es)) /\
    (total_run (total_initialize t) es = None <-> forall j, (1 <= j <= length es)%nat -> ~ reached t (firstn j es)).
Proof.
  intros t0 es0.
  (* from the state after the events pre *)
  assert (G : forall es pre, (forall k, total_run (Total (current t0 pre) (count pre)) es = Some k ->
                 (1 <= k <= length es)%nat /\ reached t0 (pre ++ firstn k es) /\ forall j, (1 <= j < k)%nat -> ~ reached t0 (pre ++ firstn j es)) /\
               (total_run (Total (current t0 pre) (count pre)) es = None -> forall j, (1 <= j <= length es)%nat -> ~ reached t0 (pre ++ firstn j es))).
  { induction es as [|e es IH]; intros pre; cbn [total_run].
    - split; [discriminate|]. intros _ j Hj. cbn in Hj. lia.
    - assert (St : fst (total_step (Total (current t0 pre) (count pre)) e) = Total (current t0 (pre ++ [e])) (count (pre ++ [e]))).
      { unfold current, count. rewrite fold_left_app, filter_app, app_length. cbn [fold_left]. destruct e; cbn; f_equal; lia. }
      assert (Ra : snd (total_step (Total (current t0 pre) (count pre)) e) = true <-> reached t0 (pre ++ [e])).
      { unfold total_step in *. cbv zeta in *. cbn [fst snd] in *. rewrite St. unfold maybe_terminate, reached. cbn [total n_messages].
        destruct (current t0 (pre ++ [e])) as [n|].
        - rewrite Z.leb_le. split; [intros L; exists n; auto|intros (n' & E & L); congruence].
        - split; [discriminate|intros (n' & E & _); discriminate]. }
      destruct (total_step (Total (current t0 pre) (count pre)) e) as [s' r]. cbn [fst snd] in *. subst s'.
      destruct (IH (pre ++ [e])) as (I1 & I2). assert (Ap : forall l, (pre ++ [e]) ++ l = pre ++ e :: l) by (intros l; rewrite <- app_assoc; reflexivity).
      destruct r.
      + split; [|discriminate]. intros k E. injection E as <-. split; [cbn [length]; lia|]. split; [apply Ra; reflexivity|]. intros j Hj. lia.
      + assert (Nr : ~ reached t0 (pre ++ [e])) by (intros F; apply Ra in F; discriminate).
        split.
        * intros k E. destruct (total_run _ es) as [k'|]; [|discriminate]. injection E as <-. destruct (I1 k' eq_refl) as (L & R & N).
          split; [cbn [length]; lia|]. split; [cbn [firstn]; rewrite <- Ap; exact R|]. intros [|[|j]] Hj; [lia|exact Nr|].
          change (firstn (Datatypes.S (Datatypes.S j)) (e :: es)) with (e :: firstn (Datatypes.S j) es). rewrite <- Ap. apply N. lia.
        * intros E. destruct (total_run _ es) as [k'|]; [discriminate|]. intros [|[|j]] Hj; [lia|exact Nr|].
          change (firstn (Datatypes.S (Datatypes.S j)) (e :: es)) with (e :: firstn (Datatypes.S j) es). rewrite <- Ap. apply I2; [reflexivity|]. cbn [length] in Hj. lia. }
  destruct (G es0 []) as (G1 & G2). cbn [app current count fold_left filter length Z.of_nat] in G1, G2. unfold total_initialize.
  change (Total t0 0) with (Total (current t0 []) (count [])) in *. split.
  - intros k. split; [exact (G1 k)|]. intros (L & R & N). destruct (total_run (Total (current t0 []) (count [])) es0) as [k'|] eqn:E.
    + destruct (G1 k' eq_refl) as (L' & R' & N'). f_equal.
      destruct (lt_eq_lt_dec k' k) as [[F|F]|F]; [|exact F|]; exfalso; [apply (N k'); [lia|exact R']|apply (N' k); [lia|exact R]].
    + exfalso. exact (G2 eq_refl k L R).
  - split; [exact G2|]. intros N. destruct (total_run (Total (current t0 []) (count [])) es0) as [k'|] eqn:E; [|reflexivity].
    destruct (G1 k' eq_refl) as (L' & R' & _). exfalso. exact (N k' L' R').
Qed.
Print Assumptions C56_terminates_exactly_at_the_total.

Example C56_case :
  total_run (total_initialize (Some 3)) [Message; Message; NewTotal (Some 4); Message; Message; Message] = Some 5%nat /\
  total_run (total_initialize None) [Message; Message; NewTotal (Some 1); Message] = Some 3%nat /\
  total_run (total_initialize (Some 3)) [Message; Message] = None.
Proof. split; [reflexivity|split; reflexivity]. Qed.
