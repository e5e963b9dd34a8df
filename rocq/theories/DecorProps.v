(* C92: profiling and debug logging do not change what is computed. *)

From Coq Require Import ZArith String List Bool Arith Lia.
From Verif Require Import DecorModel DecorSpec.
Import ListNotations.
Open Scope string_scope.

Lemma index_nth n l k : index_of n l = Some k <-> nth_error l k = Some n /\ forall j, j < k -> nth_error l j <> Some n.
Proof.
  revert k. induction l as [|x l IH]; intros k; cbn.
  - split; [discriminate|]. intros (H & _). destruct k; discriminate.
  - destruct (String.eqb x n) eqn:E.
    + apply String.eqb_eq in E as ->. split.
      * intros [= <-]. split; [reflexivity|]. lia.
      * intros (H & F). destruct k; [reflexivity|]. exfalso. apply (F 0); [lia|reflexivity].
    + apply String.eqb_neq in E. split.
      * destruct (index_of n l) as [j|]; [|discriminate]. intros [= <-]. destruct (proj1 (IH j) eq_refl) as (A & B). split; [exact A|]. intros [|i] L; cbn; [congruence|]. apply B. lia.
      * intros (H & F). destruct k; [cbn in H; congruence|]. destruct (IH k) as (_ & IK). rewrite IK; [reflexivity|]. split; [exact H|]. intros j L. apply (F (S j)). lia.
Qed.

Lemma well_made_ok oldest o : well_made o -> process_obj oldest o <> Raises.
Proof.
  destruct o as [i|axes dims shape]; cbn; [discriminate|]. intros (L & H).
  assert (G : forall n a, (n = "win" \/ n = "time") -> get_ax n axes = Some a ->
    match index_of n dims with None => Raises | Some k => if Nat.eqb (nth k shape 0) 0 then NoTime else match value a (if oldest then 0 else nth k shape 0 - 1) with Some t => Time t | None => Raises end end <> Raises).
  { intros n a N A. destruct (H n a N A) as (k & len & I & S & D). rewrite I, (nth_error_nth _ _ 0 S). destruct (Nat.eqb len 0) eqn:Z; [discriminate|]. apply Nat.eqb_neq in Z.
    destruct a as [g f|d]; cbn; [discriminate|]. assert (B : (if oldest then 0 else len - 1) < length d) by (destruct oldest; lia). apply nth_error_Some in B. destruct (nth_error d _); [discriminate|congruence]. }
  destruct (get_ax "win" axes) as [a|] eqn:W; [apply G; auto|]. destruct (get_ax "time" axes) as [a|] eqn:T; [apply G; auto|]. discriminate.
Qed.

Lemma traced_ok oldest l e : (forall o, In o (yields l) -> process_obj oldest o <> Raises) ->
  traced oldest l e = (l, map (process_obj oldest) (yields l), e).
Proof.
  induction l as [|[k|c o] l IH]; intros H; cbn; [reflexivity| |].
  - rewrite IH by (intros o I; apply H; exact I). reflexivity.
  - pose proof (H o (or_introl eq_refl)) as N. rewrite IH by (intros o' I; apply H; right; exact I). destruct (process_obj oldest o); [congruence|reflexivity|reflexivity].
Qed.

(** Unless EZMSG_LOGLEVEL is DEBUG the decorators change nothing and log nothing. *)
Theorem C92_not_debugging :
  forall oldest t msg (f : obj -> option obj) x,
  call false true oldest t msg = call false false oldest t msg /\ snd (fst (call false true oldest t msg)) = [] /\
  call_method false oldest f x = (f x, []).
Proof.
  intros oldest t msg f x. unfold call, call_method. cbn. destruct (body t _) as [l e]. destruct (f x); auto.
Qed.

(** A wrapped task that takes a message and yields well-made messages does and yields what it would without the
    decorator, ends in the same way, and one line is logged for each message. *)
Theorem C92_transparent :
  forall oldest t msg l e, takes_msg t = true -> is_gen t = true -> body t msg = (l, e) -> (forall o, In o (yields l) -> well_made o) ->
  call true false oldest t msg = (l, [], e) /\
  call true true oldest t msg = (l, map (process_obj oldest) (yields l), e).
Proof.
  intros oldest t msg l e T G B W. unfold call. rewrite T, G, B. cbn. split; [reflexivity|]. apply traced_ok. intros o I. apply well_made_ok, W, I.
Qed.

(** The same for methods: the result is the method's, and one line is logged for each call that returns. *)
Theorem C92_method_transparent :
  forall oldest (f : obj -> option obj) x, (forall r, f x = Some r -> well_made r) ->
  call_method true oldest f x = (f x, match f x with Some r => [process_obj oldest r] | None => [] end).
Proof.
  intros oldest f x W. unfold call_method. destruct (f x) as [r|]; [|reflexivity]. pose proof (well_made_ok oldest r (W r eq_refl)). destruct (process_obj oldest r); congruence || reflexivity.
Qed.

(** Whatever it is given, a wrapped task does and yields no more than the task inside, in the same order. *)
Theorem C92_never_more :
  forall oldest t msg a s e, call true true oldest t msg = (a, s, e) ->
  exists r, fst (body t (if takes_msg t then msg else None)) = (a ++ r)%list /\ length s = length (yields a).
Proof.
  intros oldest t msg a s e. unfold call. cbn. destruct (takes_msg t && is_gen t).
  - destruct (body t _) as [l x]. cbn [fst]. revert a s e x. induction l as [|[k|c o] l IH]; intros a s e x H; cbn in H.
    + injection H as <- <- <-. exists []. auto.
    + destruct (traced oldest l x) as [[a' s'] e'] eqn:T. injection H as <- <- <-. destruct (IH _ _ _ _ T) as (r & -> & L). exists r. auto.
    + destruct (process_obj oldest o).
      * injection H as <- <- <-. eexists. split; reflexivity.
      * destruct (traced oldest l x) as [[a' s'] e'] eqn:T. injection H as <- <- <-. destruct (IH _ _ _ _ T) as (r & -> & L). exists r. cbn. auto.
      * destruct (traced oldest l x) as [[a' s'] e'] eqn:T. injection H as <- <- <-. destruct (IH _ _ _ _ T) as (r & -> & L). exists r. cbn. auto.
  - intros H. injection H as <- <- <-. eexists. split; reflexivity.
Qed.

(** The time logged for a message with one of the two time axes is that of its first or last sample. *)
Theorem C92_sample_time :
  forall oldest o n other a len, (n = "win" /\ other = "time" \/ n = "time" /\ other = "win") ->
  has_axis o n a len -> lacks o other -> 0 < len ->
  match end_of oldest a len with Some t => process_obj oldest o = Time t | None => process_obj oldest o = Raises end.
Proof.
  intros oldest o n other a len N [axes dims shape k -> A D F S] LK P. cbn in LK. unfold end_of. cbn.
  assert (I : index_of n dims = Some k) by (apply index_nth; auto).
  destruct N as [(-> & ->)|(-> & ->)]; [|rewrite LK]; rewrite A, I, (nth_error_nth _ _ 0 S); (destruct (Nat.eqb len 0) eqn:Z; [apply Nat.eqb_eq in Z; lia|]); destruct (value a _); reflexivity.
Qed.

(** DebugLog passes on the message it got, if it can be printed, and logs its name and the message, or the first
    [n] characters of that and a remark. *)
Theorem C92_debug_log :
  forall name n repr msg r, repr msg = Some r ->
  let whole := name ++ " - msg=" ++ r in
  debug_log name None repr msg = Some (whole, msg) /\
  (String.length whole <= n -> debug_log name (Some (Z.of_nat n)) repr msg = Some (whole, msg)) /\
  (n < String.length whole -> exists shown rest, debug_log name (Some (Z.of_nat n)) repr msg = Some (shown ++ " ... [truncated]", msg) /\
     String.length shown = n /\ whole = shown ++ rest).
Proof.
  intros name n repr msg r R whole. unfold debug_log. rewrite R. fold whole. split; [reflexivity|]. split; intros L.
  - destruct (Z.ltb_spec (Z.of_nat n) (Z.of_nat (String.length whole))); [lia|reflexivity].
  - destruct (Z.ltb_spec (Z.of_nat n) (Z.of_nat (String.length whole))); [|lia]. unfold slice_to. destruct (Z.ltb_spec (Z.of_nat n) 0); [lia|]. rewrite Z.min_l by lia. rewrite Nat2Z.id.
    clear - L. revert n L. assert (G : forall w n, n < String.length w -> String.length (substring 0 n w) = n /\ exists rest, w = substring 0 n w ++ rest).
    { induction w as [|c w IH]; intros n L; cbn in L; [lia|]. destruct n; [split; [reflexivity|exists (String c w); reflexivity]|]. cbn. destruct (IH n) as (A & rest & B); [lia|]. rewrite A. split; [reflexivity|]. exists rest. congruence. }
    intros n L. destruct (G whole n L) as (A & rest & B). exists (substring 0 n whole), rest. auto.
Qed.

(** C92 finding: profile_subpub calls the task with a message always.  Around a task that only publishes (and has no message
    parameter) it raises TypeError when profiling is on, and nothing is published. *)
Theorem C92_publisher_refuted :
  ~ (forall oldest t msg, is_gen t = true -> (forall o, In o (yields (fst (body t None))) -> well_made o) -> takes_msg t = false ->
     fst (fst (call true true oldest t msg)) = fst (body t None)).
Proof. intros H. specialize (H true (mkTask false true (fun _ => ([Yield 0 (Plain 1)], Returns))) None eq_refl). discriminate H; [|reflexivity]. intros o [<-|[]]. exact Logic.I. Qed.

(** C92 finding: around a task that only subscribes (a coroutine, not a generator) it raises TypeError too, and the task does nothing. *)
Theorem C92_subscriber_refuted :
  ~ (forall oldest t msg, takes_msg t = true -> yields (fst (body t msg)) = [] -> fst (fst (call true true oldest t msg)) = fst (body t msg)).
Proof. intros H. specialize (H true (mkTask true false (fun _ => ([Do 7], Returns))) None eq_refl eq_refl). discriminate H. Qed.

(** C92 finding: profiling makes a task fail that yields an AxisArray with a "time" axis that is not among its dimensions,
    which AxisArray allows: the message is not published, and the generator is not resumed. *)
Theorem C92_stray_axis_refuted :
  exists t o, takes_msg t = true /\ is_gen t = true /\
    (forall msg, body t msg = ([Yield 0 o; Do 7], Returns)) /\
    forall oldest msg, call true true oldest t msg = ([], [], Raised).
Proof.
  exists (mkTask true true (fun _ => ([Yield 0 (Arr [("time", Linear 1 0)] ["ch"] [4]); Do 7], Returns))).
  eexists. split; [reflexivity|]. split; [reflexivity|]. split; [reflexivity|]. intros [|] msg; reflexivity.
Qed.

(** C92 finding: for windowed messages, with a "win" and a "time" axis, the time of the first sample is meant to be the sum of
    the two; the comparison that decides this compares the axis itself with its name and never holds, so the "time" axis is left out. *)
Theorem C92_window_time_refuted :
  ~ (forall o a b lena lenb x y, has_axis o "win" a lena -> has_axis o "time" b lenb -> 0 < lena -> 0 < lenb ->
     end_of true a lena = Some x -> end_of true b lenb = Some y -> process_obj true o = Time (x + y)%Z).
Proof.
  intros H. specialize (H (Arr [("win", Linear 2 10); ("time", Linear 1 5)] ["win"; "time"] [3; 4]) (Linear 2 10) (Linear 1 5) 3 4 10%Z 5%Z).
  assert (E : process_obj true (Arr [("win", Linear 2 10); ("time", Linear 1 5)] ["win"; "time"] [3; 4]) = Time 15).
  { apply H; try lia; try reflexivity.
    - apply (has_axis_intro _ _ _ _ _ _ _ 0 eq_refl); try reflexivity. lia.
    - apply (has_axis_intro _ _ _ _ _ _ _ 1 eq_refl); try reflexivity. intros [|j] L; [discriminate|lia]. }
  discriminate E.
Qed.

(** A task that does something, yields two messages (one with coordinates) and fails. *)
Example C92_case :
  let m1 := Arr [("time", Coords [3; 4; 9]%Z)] ["ch"; "time"] [2; 3] in
  let t := mkTask true true (fun _ => ([Do 1; Yield 0 m1; Yield 1 (Plain 2); Do 3], Raised)) in
  well_made m1 /\ has_axis m1 "time" (Coords [3; 4; 9]%Z) 3 /\ lacks m1 "win" /\
  call true true false t None = ([Do 1; Yield 0 m1; Yield 1 (Plain 2); Do 3], [Time 9; NoTime], Raised) /\
  debug_log "A" (Some 5%Z) (fun _ => Some "xyz") m1 = Some ("A - m ... [truncated]", m1).
Proof.
  cbv zeta. split; [|split; [|split; [reflexivity|split; reflexivity]]].
  - split; [reflexivity|]. intros n a [->| ->] E; cbn in E; [discriminate|]. injection E as <-. exists 1, 3. repeat split.
  - apply (has_axis_intro _ _ _ _ _ _ _ 1 eq_refl); try reflexivity. intros [|j] L; [discriminate|lia].
Qed.

Print Assumptions C92_not_debugging.
Print Assumptions C92_transparent.
Print Assumptions C92_method_transparent.
Print Assumptions C92_never_more.
Print Assumptions C92_sample_time.
Print Assumptions C92_debug_log.
Print Assumptions C92_publisher_refuted.
Print Assumptions C92_subscriber_refuted.
Print Assumptions C92_stray_axis_refuted.
Print Assumptions C92_window_time_refuted.
