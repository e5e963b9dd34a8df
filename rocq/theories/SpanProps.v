(* C94: what the trace of a unit's subscriber holds. *)
From Coq Require Import List Arith ZArith Bool Lia.
From Verif Require Import SpanModel SpanSpec SpanProofs.
Import ListNotations.

(** A subscriber that is not leaky, whatever it did before tracing was switched on (state s): of
    every n-th message since then, and of no other, the trace holds the time each task took,
    under the task's name and with the message's number, and the time the message was held;
    in that order, the newest [maxlen] of them. *)
Theorem C94_every_nth : forall maxlen c s ts ms, clock_ok ms -> undisturbed ms ->
  samples (serve maxlen false (apply c s) ts ms) = newest maxlen (expected c ts ms).
Proof.
  intros maxlen c s ts ms P U. exact (proj1 (serve_ok maxlen c ms P U 0 [] _ ts (live_apply maxlen c s))).
Qed.
Print Assumptions C94_every_nth.

(** Every message that is handled is counted once, traced or not. *)
Theorem C94_counted : forall maxlen leaky c s ts ms, clock_ok ms -> undisturbed ms ->
  total (serve maxlen leaky (apply c s) ts ms) = total s + length (handled ts ms).
Proof.
  intros maxlen [|] c s ts ms P U.
  - exact (proj2 (serve_leaky maxlen c ms U 0 [] _ ts (live_apply maxlen c s))).
  - exact (proj2 (serve_ok maxlen c ms P U 0 [] _ ts (live_apply maxlen c s))).
Qed.
Print Assumptions C94_counted.

(** When tracing is off nothing is recorded. *)
Theorem C94_off : forall maxlen leaky n s ts ms, clock_ok ms -> undisturbed ms ->
  samples (serve maxlen leaky (apply (mkControl n false false) s) ts ms) = [].
Proof.
  intros maxlen leaky n s ts ms P U.
  assert (E : forall f k i l, (forall m t, f m t = []) -> every k i f l = []).
  { intros f k i l F. revert i. induction l as [|[m t] l IH]; intros i; cbn; [reflexivity|].
    rewrite F, IH. now destruct (S i mod k =? 0). }
  destruct leaky.
  - rewrite (proj1 (serve_leaky maxlen _ ms U 0 [] _ ts (live_apply maxlen _ s))).
    rewrite E by reflexivity. reflexivity.
  - rewrite (C94_every_nth maxlen _ s ts ms P U). unfold expected. rewrite E by reflexivity. reflexivity.
Qed.
Print Assumptions C94_off.

(** For a leaky subscriber the trace holds the time every n-th message was held. *)
Theorem C94_leaky : forall maxlen c s ts ms, undisturbed ms ->
  samples (serve maxlen true (apply c s) ts ms) =
  newest maxlen (every (Nat.max 1 (c_mod c)) 0
    (fun m _ => if c_lease c then [lease_of m] else []) (handled ts ms)).
Proof.
  intros maxlen c s ts ms U. exact (proj1 (serve_leaky maxlen c ms U 0 [] _ ts (live_apply maxlen c s))).
Qed.
Print Assumptions C94_leaky.

(** C94 finding: the tasks of a leaky subscriber are never traced, whatever is asked for: recv() has
    finished with the message before the task is called, and no span is then recorded. *)
Theorem C94_leaky_refuted : forall maxlen c s ts ms x, undisturbed ms ->
  In x (samples (serve maxlen true (apply c s) ts ms)) -> s_metric x = LeaseTime.
Proof.
  intros maxlen c s ts ms x U H. rewrite C94_leaky in H by exact U. apply skipn_In in H.
  apply every_In in H as (m & l & _ & H). destruct (c_lease c); [|contradiction].
  destruct H as [<-|[]]. reflexivity.
Qed.
Print Assumptions C94_leaky_refuted.

(** C94 finding: a message whose task raises leaves no lease time in the trace, although it was held
    and counted. *)
Theorem C94_raising_refuted : forall maxlen s t m, clock_ok [m] -> undisturbed [m] -> raises m t = true ->
  samples (serve maxlen false (apply (mkControl 1 true false) s) [t] [m]) = [] /\
  total (serve maxlen false (apply (mkControl 1 true false) s) [t] [m]) = S (total s).
Proof.
  intros maxlen s t m P U R. split.
  - rewrite C94_every_nth by assumption.
    assert (E : expected (mkControl 1 true false) [t] [m] = []); [|now rewrite E].
    unfold expected, samples_of. cbn [handled called every existsb c_span c_lease]. cbn [existsb]. rewrite R. reflexivity.
  - rewrite C94_counted by assumption. cbn [handled length existsb]. rewrite R. cbn [orb length]. lia.
Qed.
Print Assumptions C94_raising_refuted.

(** C94 finding: a trace that is started anew while a task runs can hold a sample of the message that
    task works on, for a time that began before the trace and although no message, let alone the
    k-th, has been received since. *)
Theorem C94_restart_refuted : forall maxlen k q b e r, 0 < maxlen -> (0 < b)%Z ->
  let m := mkMsg q 1 1 1 (fun _ => mkWork b e r Returns (Some (mkControl k false true))) in
  let s := serve maxlen false (apply (mkControl 1 false true) new) [0] [m] in
  samples s = [mkSample UserSpan (Some 0) (e - b) (Some q) r] /\ counter s = 0.
Proof.
  intros maxlen k q b e r Hm Hb. cbv zeta.
  assert (L : (b <=? 0)%Z = false) by (apply Z.leb_gt; exact Hb).
  destruct maxlen as [|maxlen]; [lia|]. cbn. unfold end_profile. rewrite L. cbn. split; reflexivity.
Qed.
Print Assumptions C94_restart_refuted.

(** Two tasks, every second message; the first task finishes with the third message, the second one
    raises on the fourth. The fifth is not handled. *)
Example C94_case :
  let d (o0 o1 : outcome) (t : nat) :=
    if t =? 0 then mkWork 10 15 16 o0 None else mkWork 20 28 29 o1 None in
  let ms := [mkMsg 7 9 30 31 (d Returns Returns); mkMsg 8 9 30 31 (d Returns Returns);
             mkMsg 9 9 30 31 (d Finishes Returns); mkMsg 10 9 30 31 (d Returns Raises);
             mkMsg 11 9 30 31 (d Returns Returns)] in
  let c := mkControl 2 true true in
  clock_ok ms /\ undisturbed ms /\
  map (fun p => (m_seq (fst p), snd p)) (handled [0; 1] ms) = [(7, [0; 1]); (8, [0; 1]); (9, [0; 1]); (10, [1])] /\
  samples (serve 100 false (apply c new) [0; 1] ms) =
    [mkSample UserSpan (Some 0) 5 (Some 8) 16; mkSample UserSpan (Some 1) 8 (Some 8) 29;
     mkSample LeaseTime None 21 (Some 8) 31; mkSample UserSpan (Some 1) 8 (Some 10) 29] /\
  map s_metric (samples (serve 100 true (apply c new) [0; 1] ms)) = [LeaseTime; LeaseTime].
Proof.
  cbv zeta. split; [|split; [|split; [|split]]]; try reflexivity.
  - intros m t Hm. cbn in Hm. repeat destruct Hm as [<-|Hm]; try contradiction; cbn; destruct (t =? 0); reflexivity.
  - intros m t Hm. cbn in Hm. repeat destruct Hm as [<-|Hm]; try contradiction; cbn; destruct (t =? 0); reflexivity.
Qed.
