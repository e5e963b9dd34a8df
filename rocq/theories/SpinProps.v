(** C76: subscriptions with callbacks in a SyncContext. *)
From Coq Require Import List Arith Bool Lia.
From Verif Require Import Dict SpinModel SpinSpec SpinProofs.
Import ListNotations.

(** Between two calls of spin_once, what has arrived at a subscription is what has been dealt with, in the order of
    arrival and each message once, followed by what is still queued — whatever the interleaving, the time-outs, the
    other subscriptions, and the exceptions raised by callbacks. *)
Theorem C76_once_in_order : forall n zc es s i, history n zc es s -> now s = Out ->
  arrived i es = dealt i (log s) ++ queue (subs s i).
Proof.
  intros n zc es s i [k H] O. destruct (inv_run _ _ _ _ _ H) as [_ I]. now rewrite (I i), O.
Qed.

(** The messages given to a callback are given in the order of arrival and none twice, at any moment. *)
Theorem C76_called_in_order : forall n zc es s i, history n zc es s -> subsequence (called i (log s)) (arrived i es).
Proof.
  intros n zc es s i [k H]. destruct (inv_run _ _ _ _ _ H) as [_ I]. rewrite (I i). apply subsequence_app, called_dealt.
Qed.

(** If nobody interrupts, a message dealt with was given to the callback, unless it had been evicted from the cache,
    its publisher was not one of the subscription's, or it had to be copied and could not be. *)
Theorem C76_why_not_called : forall n zc k es s i m, steps n zc (start k) es = Some s -> undisturbed es ->
  In m (dealt i (log s)) -> ~ In (OCall i m) (log s) ->
  In (Evict m) es \/
  (~ In (fst m) (k i) \/ exists ps, In (Publishers i ps) es /\ ~ In (fst m) ps) \/
  (zc i = false /\ In (Call false) es).
Proof.
  intros n zc k es s i m H U D N. destruct (why_run _ _ _ _ _ H) as (_ & _ & W3 & W4 & W5).
  pose proof (run_no_drop _ _ _ _ _ H U) as ND.
  unfold dealt in D. apply in_flat_map in D. destruct D as (o & O1 & O2).
  destruct o as [lim|j x|j x|j x|j x|j x|j x|j x|b|]; try contradiction;
    (destruct (j =? i) eqn:E; [|contradiction]); apply Nat.eqb_eq in E; destruct O2 as [O2|[]]; subst.
  - right. left. exact (W4 _ _ O1).
  - left. exact (W3 _ _ O1).
  - contradiction.
  - right. right. exact (W5 _ _ O1).
  - exfalso. exact (ND _ _ O1).
Qed.

(** A message is held while its callback runs and released as soon as the callback has ended; none is released at any
    other time, or twice. *)
Theorem C76_released_after_callback : forall n zc es s, history n zc es s ->
  match now s with
  | InCallback i m _ => exists l, log s = l ++ [OCall i m] /\ tidy l
  | _ => tidy (log s)
  end.
Proof. intros n zc es s [k H]. exact (tidy_run _ _ _ _ _ H). Qed.

(** spin_once answers True exactly if it has dealt with a message, and False only if it was given a time-out. *)
Theorem C76_answer : forall n zc es s, history n zc es s -> answers false false (log s).
Proof. intros n zc es s [k H]. exact (proj1 (ans_run _ _ false false _ _ _ H)). Qed.

(** A message at the head of a queue when spin_once is called is dealt with before spin_once returns, however busy
    the other subscriptions are. *)
Theorem C76_nobody_starves : forall n zc es0 s i m q lim es s', history n zc es0 s -> now s = Out -> i < n ->
  queue (subs s i) = m :: q -> In (fst m) (known (subs s i)) -> In m (cached s) ->
  steps n zc s (Spin lim :: es) = Some s' -> now s' = Out -> undisturbed es -> stays i m es ->
  exists l, log s' = log s ++ l /\ (In (OCall i m) l \/ In (OUncopied i m) l).
Proof.
  intros n zc es0 s i m q lim es s' [k H] O L Q K C R O' U V.
  pose proof (inv_run _ _ _ _ _ H) as I.
  change (match step n zc s (Spin lim) with Some s1 => steps n zc s1 es | None => None end = Some s') in R.
  destruct (step n zc s (Spin lim)) as [s1|] eqn:E; [|discriminate].
  pose proof (inv_step _ _ _ _ _ _ I E) as I1.
  assert (S1 : Serve i m (log s) s1).
  { cbn [step] in E. rewrite O in E. destruct (n =? 0) eqn:Z; [apply Nat.eqb_eq in Z; lia|]. injection E as <-. split.
    - exists [OSpin lim]. reflexivity.
    - right. right. exists lim, (fun _ => Fresh). split; [reflexivity|]. split; [reflexivity|]. exists q. auto. }
  destruct (serve_steps n zc i m (log s) es L U V s1 s' _ I1 S1 R) as [_ [S2|[S2|(? & ? & S2 & _)]]].
  - exact S2.
  - rewrite O' in S2. destruct S2.
  - congruence.
Qed.

(** A running call of spin_once that has a time-out, or a message to deal with, can always come to its end: the loop
    and the calling thread have steps left that lead there. *)
Theorem C76_comes_to_an_end : forall n zc es s, history n zc es s -> has_work n s ->
  exists es' s', forallb goes_on es' = true /\ steps n zc s es' = Some s' /\ now s' = Out.
Proof.
  intros n zc es s [k H] W. destruct (inv_run _ _ _ _ _ H) as [I _].
  assert (F : exists s', finishing n zc s s').
  { unfold has_work in W. destruct (now s) as [|lim ts|lim rs ts|rs|i m rs] eqn:P; [contradiction|..].
    - apply (finish_wait n zc _ s lim ts eq_refl P); [now rewrite P|]. destruct W as [W|(i & L & W)]; [now left|right].
      destruct W as [(m & W)|(W1 & m & q & W2)].
      + exists i, m. auto.
      + exists i, m. split; [exact L|right]. split; [exact W1|]. exists q. exact W2.
    - exact (finish_gather n zc _ s lim rs ts eq_refl P W).
    - exact (finish_calls n zc rs s P I).
    - set (s2 := go_on s rs [OEnd i m; ORelease i m]).
      assert (S2 : step n zc s (CallbackEnds false) = Some s2) by (cbn [step]; now rewrite P).
      destruct rs as [|r rs].
      + exists s2. eapply finishing_step; [exact S2|reflexivity|]. exists []. auto.
      + destruct (finish_calls n zc (r :: rs) s2) as [s' F]; [reflexivity|discriminate|]. exists s'.
        eapply finishing_step; [exact S2|reflexivity|exact F]. }
  destruct F as (s' & es' & F1 & F2 & F3). exists es', s'. auto.
Qed.

(** C76 finding: spin_once takes a message from every subscription that has one and then calls the callbacks one after
    the other.  If one of them raises KeyboardInterrupt, SystemExit or another exception that is not an Exception, the
    messages taken for the others are given to nobody: their callbacks never see them, though the program may go on
    calling spin_once. *)
Theorem C76_interrupted_callback_loses_messages_refuted :
  exists n zc es s, history n zc es s /\ now s = Out /\ ~ In Interrupt es /\
  exists i m, In m (arrived i es) /\ ~ In m (queue (subs s i)) /\ ~ In (OCall i m) (log s) /\
  ~ In (Evict m) es /\ (forall j ps, ~ In (Publishers j ps) es).
Proof.
  exists 2, (fun _ => false),
    [Arrive 0 (7, 0); Arrive 1 (7, 0); Spin false; Run 0; Run 1; WaitOver [0; 1]; Resume false []; Call true; CallbackEnds true].
  eexists. split; [exists (fun _ => [7]); vm_compute; reflexivity|]. split; [reflexivity|].
  split; [cbn; intuition discriminate|]. exists 1, (7, 0).
  cbn. intuition discriminate.
Qed.

(** C76 finding: an interruption while spin_once waits (Ctrl-C) loses a message that a receiving task has just
    completed with: only unfinished tasks are cancelled, the result of a finished one is dropped. *)
Theorem C76_interrupt_while_waiting_loses_a_message_refuted :
  exists n zc es s, history n zc es s /\ now s = Out /\ ~ In (CallbackEnds true) es /\
  exists i m, In m (arrived i es) /\ ~ In m (queue (subs s i)) /\ ~ In (OCall i m) (log s).
Proof.
  exists 1, (fun _ => true), [Arrive 0 (7, 0); Spin true; Run 0; Interrupt].
  eexists. split; [exists (fun _ => [7]); vm_compute; reflexivity|]. split; [reflexivity|].
  split; [cbn; intuition discriminate|]. exists 0, (7, 0). cbn. intuition discriminate.
Qed.

(** Non-vacuity: three subscriptions; one message is ready for the first, one becomes ready for the second while
    spin_once waits, the third gets none; the second's publisher is then gone; two rounds. *)
Example C76_case :
  let zc := fun i => i =? 1 in
  let es := [Arrive 0 (7, 0); Arrive 0 (7, 1); Spin true; Run 2; Run 0; Arrive 1 (8, 0); Run 1; WaitOver [1; 0]; Cancel 2; Resume false [2];
             Call true; CallbackEnds false; Call true; CallbackEnds false;
             Arrive 1 (8, 1); Evict (8, 1); Publishers 0 []; Spin true; Run 0; Run 1; Run 2; WaitOver [1]; Cancel 0; Cancel 2; Resume true [0; 2]] in
  exists s, steps 3 zc (start (fun i => [7 + i])) es = Some s /\ now s = Out /\
    called 0 (log s) = [(7, 0)] /\ called 1 (log s) = [(8, 0)] /\ dealt 0 (log s) = [(7, 0); (7, 1)] /\
    In (OReturn true) (log s) /\ In (OReturn false) (log s) /\ undisturbed es.
Proof.
  eexists. split; [vm_compute; reflexivity|]. split; [reflexivity|]. split; [reflexivity|]. split; [reflexivity|].
  split; [reflexivity|]. split; [|split; [|split]]; cbn; intuition discriminate.
Qed.

Print Assumptions C76_once_in_order.
Print Assumptions C76_called_in_order.
Print Assumptions C76_why_not_called.
Print Assumptions C76_released_after_callback.
Print Assumptions C76_answer.
Print Assumptions C76_nobody_starves.
Print Assumptions C76_comes_to_an_end.
Print Assumptions C76_interrupted_callback_loses_messages_refuted.
Print Assumptions C76_interrupt_while_waiting_loses_a_message_refuted.
