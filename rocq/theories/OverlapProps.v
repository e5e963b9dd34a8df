(* C86: overlapping and cancelled calls of broadcast(). *)

From Coq Require Import List Arith Bool Lia.
From Verif Require Import TransportModel OverlapModel OverlapSpec OverlapProofs.
Import ListNotations.

(** The calls that returned (or write) published, in one order; every subscriber gets the messages in this order, from
    the first on, with none left out, repeated or replaced, and all of them if it is given the time; its connection
    stays up. *)
Theorem C86_delivered {Obj} (nbuf : nat) (chans : list nat) (kind : nat -> transport) (l : list (@label Obj)) s :
  0 < nbuf -> NoDup chans -> orderly nbuf chans kind init l -> run nbuf chans kind init l = Some s ->
  exists order, publications s order /\
    forall c, In c chans ->
      up (ch s c) = true /\
      (exists k, k <= length order /\ got (ch s c) = map Some (firstn k (map snd order))) /\
      (at_rest (ch s c) -> (forall i p, call_at s i p -> ~ writing p) -> got (ch s c) = map Some (map snd order)).
Proof.
  intros Hn Hc O R. destruct (run_inv nbuf chans kind Hn Hc l [] init None s (init_inv nbuf chans kind) O R) as (ord & w & I). cbn [app] in I.
  exists ord. split; [exact (i_pub _ _ _ _ _ _ I)|]. intros c C. pose proof (i_ch _ _ _ _ _ _ I c C) as K.
  assert (D := due_le nbuf kind Hn ord (next s) (match w with Some (_, _, todo) => todo | None => [] end) c (inv_len _ _ _ Hn _ _ _ I)).
  split; [exact (ci_up _ _ _ _ _ _ _ _ _ _ K)|]. split.
  - exists (length (got (ch s c))). split; [|exact (ci_got _ _ _ _ _ _ _ _ _ _ K)]. pose proof (ci_le _ _ _ _ _ _ _ _ _ _ K). lia.
  - intros (W & Q & H) NW. destruct w as [[[i cur] todo]|].
    + exfalso. eapply (NW i); [apply (i_wr _ _ _ _ _ _ I); repeat split; reflexivity|exact Logic.I].
    + pose proof (ci_ids _ _ _ _ _ _ _ _ _ _ K) as E. pose proof (ci_le _ _ _ _ _ _ _ _ _ _ K) as L. rewrite W, Q in E. cbn [app map] in E.
      assert (DE : due kind ord (next s) [] c = length ord) by (unfold due; now destruct in_dec as [[]|]). rewrite DE in *.
      assert (LE : length ord - length (got (ch s c)) = 0) by (rewrite <- (seq_length (length ord - length (got (ch s c))) (length (got (ch s c)))), <- E; reflexivity).
      rewrite (ci_got _ _ _ _ _ _ _ _ _ _ K). rewrite firstn_all2; [reflexivity|]. rewrite map_length. lia.
Qed.

(** The order is never revised: a call that has returned comes before all those that publish later. *)
Theorem C86_order_kept {Obj} (nbuf : nat) (chans : list nat) (kind : nat -> transport) (l1 l2 : list (@label Obj)) s1 s2 :
  0 < nbuf -> NoDup chans -> orderly nbuf chans kind init (l1 ++ l2) ->
  run nbuf chans kind init l1 = Some s1 -> run nbuf chans kind s1 l2 = Some s2 ->
  exists order more, publications s1 order /\ publications s2 (order ++ more) /\
    forall c, In c chans -> exists k, k <= length (order ++ more) /\ got (ch s2 c) = map Some (firstn k (map snd (order ++ more))).
Proof.
  intros Hn Hc O R1 R2.
  assert (O12 : forall l (s : @st Obj) s', orderly nbuf chans kind s (l ++ l2) -> run nbuf chans kind s l = Some s' -> orderly nbuf chans kind s l /\ orderly nbuf chans kind s' l2).
  { induction l as [|a l IH]; intros s s' X Y; cbn in *; [injection Y as <-; auto|]. destruct X as (X1 & X2). destruct (step nbuf chans kind s a) as [t|] eqn:S; [|discriminate].
    destruct (IH t s' (X2 _ eq_refl) Y) as (Z1 & Z2). split; [split; [exact X1|]|exact Z2]. intros t' [= <-]. exact Z1. }
  destruct (O12 _ _ _ O R1) as (O1 & O2).
  destruct (run_inv nbuf chans kind Hn Hc l1 [] init None s1 (init_inv nbuf chans kind) O1 R1) as (ord & w & I). cbn [app] in I.
  destruct (run_inv nbuf chans kind Hn Hc l2 _ _ _ s2 I O2 R2) as (more & w2 & I2).
  exists ord, more. split; [exact (i_pub _ _ _ _ _ _ I)|]. split; [exact (i_pub _ _ _ _ _ _ I2)|]. intros c C. pose proof (i_ch _ _ _ _ _ _ I2 c C) as K.
  assert (D := due_le nbuf kind Hn _ (next s2) (match w2 with Some (_, _, todo) => todo | None => [] end) c (inv_len _ _ _ Hn _ _ _ I2)).
  exists (length (got (ch s2 c))). split; [|exact (ci_got _ _ _ _ _ _ _ _ _ _ K)]. pose proof (ci_le _ _ _ _ _ _ _ _ _ _ K). lia.
Qed.

(** A call that was cancelled (before it was writing) has published nothing: nobody gets its message (unless another call
    has the same). *)
Theorem C86_cancelled_published_nothing {Obj} (nbuf : nat) (chans : list nat) (kind : nat -> transport) (l : list (@label Obj)) s i o c :
  0 < nbuf -> NoDup chans -> orderly nbuf chans kind init l -> run nbuf chans kind init l = Some s ->
  call_at s i Cancelled -> object s i o -> (forall j, object s j o -> j = i) -> In c chans -> ~ In (Some o) (got (ch s c)).
Proof.
  intros Hn Hc O R (x & X & XC) OB U C H. destruct (C86_delivered nbuf chans kind l s Hn Hc O R) as (order & (_ & P & _) & D).
  destruct (D c C) as (_ & (k & _ & G) & _). rewrite G in H. apply in_map_iff in H. destruct H as (o' & E & H). injection E as ->.
  assert (H' : In o (map snd order)) by (rewrite <- (firstn_skipn k (map snd order)); apply in_or_app; now left).
  apply in_map_iff in H'. destruct H' as ((j & o') & E & J). cbn in E. subst. destruct (P _ _ J) as (OJ & p & (y & Y & YP) & Z).
  pose proof (U _ OJ) as ->. rewrite X in Y. injection Y as <-. rewrite XC in YP. subst. destruct Z as [Z|Z]; [discriminate|exact Z].
Qed.

(** What a subscriber holds is not overwritten under its hands. *)
Theorem C86_held_is_stable {Obj} (nbuf : nat) (chans : list nat) (kind : nat -> transport) (l : list (@label Obj)) s c m :
  0 < nbuf -> NoDup chans -> orderly nbuf chans kind init l -> run nbuf chans kind init l = Some s ->
  In c chans -> held (ch s c) = Some m ->
  exists o before, got (ch s c) = before ++ [Some o] /\ (kind c = SharedMemory -> mem s (m mod nbuf) = Some (m, o)).
Proof.
  intros Hn Hc O R C H. destruct (run_inv nbuf chans kind Hn Hc l [] init None s (init_inv nbuf chans kind) O R) as (ord & w & I). cbn [app] in I.
  pose proof (i_ch _ _ _ _ _ _ I c C) as K. pose proof (ci_held _ _ _ _ _ _ _ _ _ _ K m H) as E. pose proof (ci_le _ _ _ _ _ _ _ _ _ _ K) as L.
  assert (D := due_le nbuf kind Hn ord (next s) (match w with Some (_, _, todo) => todo | None => [] end) c (inv_len _ _ _ Hn _ _ _ I)).
  destruct (nth_error (map snd ord) m) as [o|] eqn:N; [|apply nth_error_None in N; rewrite map_length in N; lia].
  exists o, (map Some (firstn m (map snd ord))). split.
  - rewrite (ci_got _ _ _ _ _ _ _ _ _ _ K), <- E, (firstn_snoc _ _ _ N), map_app. reflexivity.
  - intros KC. destruct (ci_mem _ _ _ _ _ _ _ _ _ _ K KC m (or_introl H)) as (o' & M1 & M2). unfold slot in M1. rewrite M1. congruence.
Qed.

Print Assumptions C86_delivered.
Print Assumptions C86_order_kept.
Print Assumptions C86_cancelled_published_nothing.
Print Assumptions C86_held_is_stable.

(** ** A case: three channels, one of each kind, two buffers; six calls, of which two pile up at a closed gate and one is
    cancelled there. *)
Definition kinds (c : nat) : transport := match c with 0 => InProcess | 1 => SharedMemory | _ => Tcp end.
Definition everyone (c : nat) : list (@label nat) := [Arrive c; Take c; Release c; Ack c].
(** What is to be seen of a run. *)
Definition report (chans : list nat) (r : option (@st nat)) :=
  match r with
  | Some s => Some (calls s, map (fun c => (up (ch s c), got (ch s c), wire (ch s c), queue (ch s c), held (ch s c))) chans)
  | None => None
  end.
Definition fine (x : @call nat) : bool := match at_ x with Returned => negb (late x) | _ => false end.
Definition the_case : list (@label nat) :=
  [Call 10; Start 0; Drained 0; Drained 0; Call 11; Start 1; Drained 1; Drained 1; Call 12; Start 2] ++
  [Take 0; Release 0] ++ everyone 1 ++ everyone 2 ++ [Wake 2; Drained 2; Pause; Drained 2; Call 13; Start 3; Call 14; Start 4; GiveUp 3; Cancel 3] ++
  [Take 0; Release 0] ++ everyone 1 ++ everyone 2 ++ [Resume; Wake 4; Drained 4; Drained 4; Take 0; Release 0; Take 0; Release 0] ++
  everyone 1 ++ everyone 1 ++ everyone 2 ++ everyone 2.

Fixpoint lonely (n : nat) (s : @st nat) (i : nat) : bool :=
  match n with
  | 0 => true
  | S n => lonely n s i && match nth_error (calls s) n with
                           | Some x => match at_ x with AtBuffer _ _ _ | AtDrain _ _ _ _ _ => n =? i | _ => true end
                           | None => true
                           end
  end.
Definition orderly_b (s : @st nat) (a : @label nat) : bool :=
  match a with
  | Start i | Wake i => lonely (length (calls s)) s i
  | Cancel i => match nth_error (calls s) i with Some x => match at_ x with AtDrain _ _ _ _ _ => false | _ => true end | None => true end
  | _ => true
  end.
Fixpoint all_orderly (nbuf : nat) (chans : list nat) (kind : nat -> transport) (s : @st nat) (l : list (@label nat)) : bool :=
  match l with
  | [] => true
  | a :: l => orderly_b s a && match step nbuf chans kind s a with Some s => all_orderly nbuf chans kind s l | None => true end
  end.
Lemma lonely_ok n s i : lonely n s i = true -> forall j p, j < n -> call_at s j p -> inside p -> j = i.
Proof.
  induction n as [|n IH]; intros H j p L (x & X & <-) IN; [lia|]. cbn in H. apply andb_prop in H. destruct H as (H1 & H2).
  destruct (Nat.eq_dec j n) as [->|N]; [|apply (IH H1 j (at_ x)); [lia|exists x; auto|exact IN]]. rewrite X in H2. destruct (at_ x); try (destruct IN); now apply Nat.eqb_eq.
Qed.
Lemma orderly_step_ok s a : orderly_b s a = true -> orderly_step s a.
Proof.
  assert (L : forall i, lonely (length (calls s)) s i = true -> alone s i).
  { intros i H j p A IN. apply (lonely_ok _ _ _ H j p); auto. destruct A as (x & X & _). apply nth_error_Some. congruence. }
  destruct a; cbn; auto. intros H p (x & X & <-). rewrite X in H. destruct (at_ x); cbn; auto; discriminate.
Qed.
Lemma orderly_ok nbuf chans kind l : forall s, all_orderly nbuf chans kind s l = true -> orderly nbuf chans kind s l.
Proof.
  induction l as [|a l IH]; intros s H; cbn in *; [exact I|]. apply andb_prop in H. destruct H as (H1 & H2). split; [now apply orderly_step_ok|].
  intros s' E. rewrite E in H2. auto.
Qed.

Example C86_case : exists s, NoDup [0; 1; 2] /\ orderly 2 [0; 1; 2] kinds init the_case /\ run 2 [0; 1; 2] kinds init the_case = Some s /\
  map (fun c => got (ch s c)) [0; 1; 2] = repeat [Some 10; Some 11; Some 12; Some 14] 3 /\ call_at s 3 Cancelled /\
  publications s [(0, 10); (1, 11); (2, 12); (4, 14)].
Proof.
  assert (RP : report [0; 1; 2] (run 2 [0; 1; 2] kinds init the_case) =
    Some ([mkCall 10 Returned false; mkCall 11 Returned false; mkCall 12 Returned false; mkCall 13 Cancelled true; mkCall 14 Returned false],
          repeat (true, [Some 10; Some 11; Some 12; Some 14], [], [], None) 3)) by (vm_compute; reflexivity).
  destruct (run 2 [0; 1; 2] kinds init the_case) as [s|]; [|discriminate].
  exists s. split; [repeat constructor; cbn; intuition lia|]. split; [apply orderly_ok; vm_compute; reflexivity|]. split; [reflexivity|].
  cbn [report map repeat] in RP. injection RP as C ? ? ? ? ? ? ? ? ? ? ? ? ? ? ?. assert (G : map (fun c => got (ch s c)) [0; 1; 2] = repeat [Some 10; Some 11; Some 12; Some 14] 3) by (cbn [map repeat]; congruence).
  split; [exact G|]. split; [unfold call_at; rewrite C; eexists; split; reflexivity|]. split; [repeat constructor; cbn; intuition lia|]. split.
  - intros i o HI. unfold object, call_at. rewrite C. cbn in HI. repeat destruct HI as [HI|HI]; try contradiction; match goal with E : (_, _) = (_, _) |- _ => injection E as <- <- end; cbn; (split; [eexists; split; reflexivity|eexists; split; [eexists; split; reflexivity|now left]]).
  - intros i p (x & X & <-). rewrite C in X. do 5 (destruct i as [|i]; [cbn in X; injection X as <-; cbn; intuition (try discriminate)|]). destruct i; discriminate.
Qed.

(** ** Findings *)

Definition one (k : transport) (c : nat) : transport := k.
Definition fill (n : nat) (drains : bool) : list (@label nat) :=
  flat_map (fun i => [Call i; Start i] ++ if drains then [Drained i] else []) (seq 0 n).
Definition all_returned (s : @st nat) : Prop := forall x, In x (calls s) -> at_ x = Returned /\ late x = false.
Lemma fine_ok (s : @st nat) : forallb fine (calls s) = true -> all_returned s.
Proof. rewrite forallb_forall. intros H x X. specialize (H x X). unfold fine in H. destruct (at_ x); try discriminate. split; [reflexivity|]. now destruct (late x). Qed.
Definition summary (r : option (@st nat)) :=
  match r with
  | Some s => Some (forallb fine (calls s), map (@obj nat) (calls s), up (ch s 0), got (ch s 0), (wire (ch s 0), queue (ch s 0), held (ch s 0)))
  | None => None
  end.

(** C86 finding: two tasks of a unit publish to the same stream (backendprocess.py:675-678 takes no lock).  When all 32
    buffers are in use both wait for the same one, and both are woken when it is free.  The second one writes its message
    over the first one's, with the number that follows, but announces the number of the first.  The channel's assertion fails
    and its connection is closed: the subscriber hears nothing of this publisher any more, although every call has
    returned. *)
Theorem C86_two_waiting_calls_break_the_channel_refuted :
  exists (l : list (@label nat)) s, run 32 [0] (one SharedMemory) init l = Some s /\ all_returned s /\ length (calls s) = 34 /\
    up (ch s 0) = false /\ got (ch s 0) = map Some (seq 0 32) /\ at_rest (ch s 0).
Proof.
  set (l := fill 32 true ++ [Call 32; Start 32; Call 33; Start 33] ++ everyone 0 ++ [Wake 32; Drained 32; Wake 33; Drained 33] ++
            flat_map everyone (repeat 0 31) ++ [Arrive 0]).
  exists l. assert (SM : summary (run 32 [0] (one SharedMemory) init l) = Some (true, seq 0 34, false, map Some (seq 0 32), ([], [], None))) by (vm_compute; reflexivity).
  destruct (run 32 [0] (one SharedMemory) init l) as [s|]; [|discriminate]. exists s. cbn [summary] in SM. injection SM as S1 S2 S3 S4 S5 S6 S7.
  split; [reflexivity|]. split; [now apply fine_ok|]. split; [rewrite <- (map_length (@obj nat)), S2; reflexivity|]. split; [exact S3|]. split; [exact S4|]. repeat split; assumption.
Qed.

(** C86 finding: the same within one process: the second of two waiting calls puts its message into a slot that it has not
    waited for, whose message the subscriber has not read; that message is lost. *)
Theorem C86_two_waiting_calls_lose_a_message_refuted :
  exists (l : list (@label nat)) s, run 32 [0] (one InProcess) init l = Some s /\ all_returned s /\
    firstn 3 (got (ch s 0)) = [Some 0; None; Some 2].
Proof.
  set (l := fill 32 false ++ [Call 32; Start 32; Call 33; Start 33; Take 0; Release 0; Wake 32; Wake 33; Take 0; Take 0]).
  exists l. assert (SM : summary (run 32 [0] (one InProcess) init l) = Some (true, seq 0 34, true, [Some 0; None; Some 2], ([], seq 3 31, Some 2))) by (vm_compute; reflexivity).
  destruct (run 32 [0] (one InProcess) init l) as [s|]; [|discriminate]. exists s. cbn [summary] in SM. injection SM as S1 S2 S3 S4 S5 S6 S7.
  split; [reflexivity|]. split; [now apply fine_ok|]. rewrite S4. reflexivity.
Qed.

(** C86 finding: a call begins while another one waits in drain(): both use the same number and the same buffer, because
    the number is counted up only at the end.  The first message is lost and the second one delivered twice. *)
Theorem C86_overlap_in_drain_refuted :
  exists (l : list (@label nat)) s, run 32 [0] (one SharedMemory) init l = Some s /\ all_returned s /\
    map (@obj nat) (calls s) = [10; 20] /\ got (ch s 0) = [Some 20; Some 20].
Proof.
  set (l := [Call 10; Start 0; Call 20; Start 1; Drained 0; Drained 1] ++ everyone 0 ++ everyone 0).
  exists l. assert (SM : summary (run 32 [0] (one SharedMemory) init l) = Some (true, [10; 20], true, [Some 20; Some 20], ([], [], None))) by (vm_compute; reflexivity).
  destruct (run 32 [0] (one SharedMemory) init l) as [s|]; [|discriminate]. exists s. cbn [summary] in SM. injection SM as S1 S2 S3 S4 S5 S6 S7.
  split; [reflexivity|]. split; [now apply fine_ok|]. auto.
Qed.

(** C86 finding: publish() with a time-out that expires while the call is in drain() leaves the number as it was, and no
    lease: the next message, published in the ordinary way, takes the same buffer, and the subscriber gets it twice (and
    the first message not at all). *)
Theorem C86_timeout_in_drain_refuted :
  exists (l : list (@label nat)) s, run 32 [0] (one SharedMemory) init l = Some s /\
    call_at s 0 Cancelled /\ call_at s 1 Returned /\ map (@obj nat) (calls s) = [10; 20] /\ got (ch s 0) = [Some 20; Some 20].
Proof.
  set (l := [Call 10; Start 0; GiveUp 0; Cancel 0; Call 20; Start 1; Drained 1] ++ everyone 0 ++ everyone 0).
  exists l. assert (SM : report [0] (run 32 [0] (one SharedMemory) init l) = Some ([mkCall 10 Cancelled true; mkCall 20 Returned false], [(true, [Some 20; Some 20], [], [], None)])) by (vm_compute; reflexivity).
  destruct (run 32 [0] (one SharedMemory) init l) as [s|]; [|discriminate]. exists s. cbn [report map] in SM. injection SM as S1 S2 S3 S4 S5 S6.
  split; [reflexivity|]. split; [exists (mkCall 10 Cancelled true); rewrite S1; split; reflexivity|]. split; [exists (mkCall 20 Returned false); rewrite S1; split; reflexivity|].
  split; [rewrite S1; reflexivity|exact S3].
Qed.

(** C86 finding: TimeoutError from publish() does not say that nothing was published: the cancellation is requested from
    another thread, and comes too late if the call is just about to return. *)
Theorem C86_timeout_but_published_refuted :
  exists (l : list (@label nat)) s x, orderly 32 [0] (one Tcp) init l /\ run 32 [0] (one Tcp) init l = Some s /\
    calls s = [x] /\ late x = true /\ at_ x = Returned /\ got (ch s 0) = [Some 10].
Proof.
  set (l := [Call 10; Start 0; GiveUp 0; Drained 0] ++ everyone 0).
  assert (OK : orderly 32 [0] (one Tcp) init l) by (apply orderly_ok; vm_compute; reflexivity).
  exists l. assert (SM : report [0] (run 32 [0] (one Tcp) init l) = Some ([mkCall 10 Returned true], [(true, [Some 10], [], [], None)])) by (vm_compute; reflexivity).
  destruct (run 32 [0] (one Tcp) init l) as [s|]; [|discriminate]. exists s, (mkCall 10 Returned true). cbn [report map] in SM. injection SM as S1 S2 S3 S4 S5 S6.
  split; [exact OK|]. split; [reflexivity|]. split; [exact S1|]. auto.
Qed.

Print Assumptions C86_two_waiting_calls_break_the_channel_refuted.
Print Assumptions C86_two_waiting_calls_lose_a_message_refuted.
Print Assumptions C86_overlap_in_drain_refuted.
Print Assumptions C86_timeout_in_drain_refuted.
Print Assumptions C86_timeout_but_published_refuted.
