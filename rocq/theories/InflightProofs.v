From Coq Require Import List Arith ZArith Bool Lia.
From Verif Require Import BackpressureModel BackpressureProofs InflightModel InflightSpec.
Import ListNotations.

Lemma unhandled_channel n h c i : unhandled n h c i = true -> In c (channels h).
Proof.
  induction h as [|f h IH]; cbn; [discriminate|]. destruct f; cbn; try exact IH.
  - rewrite orb_true_iff, andb_true_iff, Nat.eqb_eq. intros [[-> _]|H]; auto.
  - rewrite andb_true_iff. tauto.
  - rewrite andb_true_iff. tauto.
Qed.

Lemma in_flight_busy n h p : bp_inv n p ->
  (forall c i, i < n -> held_in p c i <-> unhandled n h c i = true) ->
  pressure p = Z.of_nat (in_flight n h).
Proof.
  intros I H. rewrite (inv_pressure _ _ I). f_equal. unfold in_flight.
  assert (G : forall l k, (forall j b, nth_error l j = Some b -> (empty b = true <-> existsb (fun c => unhandled n h c (k + j)) (channels h) = false)) ->
    count_busy l = length (filter (fun i => existsb (fun c => unhandled n h c i) (channels h)) (seq k (length l)))).
  { induction l as [|b l IH]; intros k Q; [reflexivity|]. cbn [length seq filter count_busy].
    pose proof (Q 0 b eq_refl) as Q0. rewrite Nat.add_0_r in Q0.
    rewrite (IH (S k)).
    2:{ intros j b' Hj. specialize (Q (S j) b' Hj). now rewrite Nat.add_succ_r in Q. }
    destruct (empty b), (existsb _ (channels h)); cbn; try reflexivity; exfalso.
    - now assert (true = false) by now apply Q0.
    - now assert (false = true) by now apply Q0. }
  rewrite <- (inv_len _ _ I) at 1. apply G. intros j b Hj. cbn [Nat.add].
  assert (Hjn : j < n) by (rewrite <- (inv_len _ _ I); apply nth_error_Some; congruence).
  destruct (empty_iff n p j I Hjn) as (b' & E & X). rewrite Hj in E. injection E as <-. rewrite X. split.
  - intros A. destruct (existsb _ _) eqn:Y; [|reflexivity]. apply existsb_exists in Y as (c & _ & Hc).
    exfalso. apply (A c). now apply H.
  - intros A u Hu. apply H in Hu; [|exact Hjn].
    assert (existsb (fun c => unhandled n h c j) (channels h) = true); [|congruence].
    apply existsb_exists. exists u. split; [|exact Hu]. eapply unhandled_channel; eauto.
Qed.

Fixpoint writing (l : list call) : nat :=
  match l with [] => 0 | Writing _ _ :: l => S (writing l) | _ :: l => writing l end.

Lemma writing_app a b : writing (a ++ b) = writing a + writing b.
Proof. induction a as [|[|] a IH]; cbn; rewrite ?IH; reflexivity. Qed.

Definition w (c : call) : nat := match c with Writing _ _ => 1 | _ => 0 end.

Lemma writing_set k x l c : nth_error l k = Some c -> writing (set_nth k x l) + w c = writing l + w x.
Proof.
  revert k; induction l as [|y l IH]; intros [|k] H; cbn in H; try discriminate; cbn [set_nth writing].
  - injection H as ->. destruct c, x; cbn; lia.
  - specialize (IH k H). destruct y; lia.
Qed.

Lemma writing_remove k l c : nth_error l k = Some c -> writing (remove_nth k l) + w c = writing l.
Proof.
  unfold remove_nth. revert k; induction l as [|y l IH]; intros [|k] H; cbn in H; try discriminate.
  - injection H as ->. cbn. destruct c; cbn; lia.
  - specialize (IH k H). cbn in *. destruct y; cbn in *; lia.
Qed.

Definition other (l : list nat) : Prop := forall c, In c l -> exists d, c = S d.

Record Inv (n : nat) (s : st) : Prop := {
  i_bp : bp_inv n (bp s);
  i_held : forall c i, i < n -> held_in (bp s) c i <-> unhandled n (log s) c i = true;
  i_way : under_way (log s) = writing (calls s);
  i_below : writing (calls s) = 0 -> (pressure (bp s) <= infl s)%Z;
  i_bound : (0 <= infl s <= Z.of_nat n)%Z;
  i_heard : infl s = Z.of_nat (last_heard n (log s));
  i_todo : forall k m l, nth_error (calls s) k = Some (Writing m l) -> other l
}.

Lemma pressure_bound n p : bp_inv n p -> (0 <= pressure p <= Z.of_nat n)%Z.
Proof.
  intros I. rewrite (inv_pressure _ _ I). rewrite <- (inv_len _ _ I).
  assert (count_busy (buffers p) <= length (buffers p)).
  { induction (buffers p) as [|b l IH]; cbn; [lia|]. destruct (empty b); lia. }
  lia.
Qed.

Lemma held_lease_log n p h c m (Hn : 0 < n) : bp_inv n p ->
  (forall c i, i < n -> held_in p c i <-> unhandled n h c i = true) ->
  forall d i, i < n -> held_in (bp_lease c (m mod n) p) d i <-> unhandled n (Sent c m :: h) d i = true.
Proof.
  intros I H d i Hi. rewrite held_lease, (H d i Hi). cbn.
  rewrite orb_true_iff, andb_true_iff, !Nat.eqb_eq, (inv_len _ _ I).
  assert (m mod n < n) by (apply Nat.mod_upper_bound; lia). tauto.
Qed.

Lemma held_free_log n p h c m :
  (forall c i, i < n -> held_in p c i <-> unhandled n h c i = true) ->
  forall d i, i < n -> held_in (bp_free c (Some (m mod n)) p) d i <-> unhandled n (Acked c m :: h) d i = true.
Proof.
  intros H d i Hi. rewrite held_free, (H d i Hi). cbn.
  rewrite andb_true_iff, negb_true_iff, andb_false_iff, !Nat.eqb_neq.
  destruct (Nat.eq_dec d c), (Nat.eq_dec i (m mod n)); tauto.
Qed.

Lemma held_free_all_log n p h c :
  (forall c i, i < n -> held_in p c i <-> unhandled n h c i = true) ->
  forall d i, i < n -> held_in (bp_free c None p) d i <-> unhandled n (Closed c :: h) d i = true.
Proof.
  intros H d i Hi. rewrite held_free, (H d i Hi). cbn.
  rewrite andb_true_iff, negb_true_iff, Nat.eqb_neq. tauto.
Qed.

Lemma todo_set (l : list call) (k : nat) (m' : call) (a : nat) (r : list nat) :
  (forall k m l', nth_error l k = Some (Writing m l') -> other l') -> nth_error l k = Some m' -> other r ->
  forall j q l', nth_error (set_nth k (Writing a r) l) j = Some (Writing q l') -> other l'.
Proof.
  intros H E O j q l'. rewrite nth_error_set_nth. destruct (k =? j); [|apply H].
  destruct (j <? length l); [|discriminate]. now intros [= _ <-].
Qed.

Lemma free_pressure_le n p c i : bp_inv n p -> (pressure (bp_free c (Some i) p) <= pressure p)%Z.
Proof.
  intros I. unfold bp_free, bp_free1. cbn [pressure].
  destruct (nth_error (buffers p) i) as [b|]; [|cbn; lia].
  destruct (lease_remove c b) as [b'|]; [|cbn; lia]. cbn. destruct (empty b'); lia.
Qed.

Lemma inv_init n : Inv n (init n).
Proof.
  constructor; cbn; try lia; auto using bp_new_inv.
  - intros c i Hi. split; [|discriminate]. intros (b & E & Hb). cbn in E.
    apply nth_error_In, repeat_spec in E. subst. destruct Hb.
  - intros [|k]; discriminate.
Qed.

Lemma inv_step n s e s' : 0 < n -> Inv n s -> step n s e = Some s' -> Inv n s'.
Proof.
  intros Hn I E. pose proof (in_flight_busy _ _ _ (i_bp _ _ I) (i_held _ _ I)) as P.
  destruct I as [B H W L D Q T]. destruct e as [|k loc todo|k ok|k|c m|c|m|]; cbn [step] in E.
  - injection E as <-. constructor; cbn [bp calls infl log set_calls]; auto.
    + rewrite writing_app. cbn. lia.
    + rewrite writing_app. cbn. rewrite Nat.add_0_r. exact L.
    + intros k m l Hk. destruct (Nat.lt_ge_cases k (length (calls s))) as [Hl|Hl].
      * rewrite nth_error_app1 in Hk by exact Hl. eauto.
      * rewrite nth_error_app2 in Hk by exact Hl. destruct (k - length (calls s)) as [|[|z]]; discriminate.
  - destruct (nth_error (calls s) k) as [[m|]|] eqn:K; try discriminate. injection E as <-.
    assert (O : other (map S todo)) by (intros c Hc; apply in_map_iff in Hc as (d & <- & _); eauto).
    pose proof (writing_set k (Writing m (map S todo)) _ _ K) as X. cbn in X.
    destruct loc; constructor; cbn [bp calls infl log set_calls note lease]; auto.
    + now apply bp_lease_inv.
    + apply held_lease_log; auto.
    + cbn. lia.
    + lia.
    + eapply todo_set; eauto.
    + cbn. lia.
    + lia.
    + eapply todo_set; eauto.
  - destruct (nth_error (calls s) k) as [[m|m [|c todo]]|] eqn:K; try discriminate. injection E as <-.
    pose proof (T k m _ K) as O.
    assert (O' : other todo) by (intros x Hx; apply O; now right).
    destruct (O c (or_introl eq_refl)) as [d ->].
    pose proof (writing_set k (Writing m todo) _ _ K) as X. cbn in X.
    assert (X' : writing (set_nth k (Writing m todo) (calls s)) = writing (calls s)) by lia.
    destruct ok; [|constructor; cbn [bp calls infl log set_calls]; rewrite ?X'; auto; exact (todo_set _ _ _ _ _ T K O')].
    pose proof (bp_lease_inv n (bp s) (S d) (m mod n) B) as B'.
    pose proof (held_lease_log n (bp s) (log s) (S d) m Hn B H) as H'.
    constructor; cbn [bp calls infl log set_calls sampled lease]; auto.
    + cbn. lia.
    + lia.
    + now apply pressure_bound.
    + cbn [last_heard]. now apply in_flight_busy.
    + eapply todo_set; eauto.
  - destruct (nth_error (calls s) k) as [[m|m [|c todo]]|] eqn:K; try discriminate. injection E as <-.
    pose proof (writing_remove k _ _ K) as X. cbn in X.
    constructor; cbn [bp calls infl log set_calls sampled note nxt]; auto.
    + cbn. lia.
    + lia.
    + now apply pressure_bound.
    + intros j q l' Hj. unfold remove_nth in Hj. apply nth_error_In in Hj. apply in_app_or in Hj.
      assert (In (Writing q l') (calls s)) as Hin.
      { rewrite <- (firstn_skipn k (calls s)). apply in_or_app. destruct Hj as [Hj|Hj]; [now left|right].
        assert (SK : forall (l : list call) k, incl (skipn (S k) l) (skipn k l)).
        { induction l as [|y l IH]; intros [|z] v Hv; cbn in *; auto. exact (IH z v Hv). }
        now apply SK in Hj. }
      apply In_nth_error in Hin as [z Hz]. eauto.
  - injection E as <-. pose proof (bp_free_inv n (S c) (Some (m mod n)) _ B) as B'.
    pose proof (held_free_log n _ _ (S c) m H) as H'.
    constructor; cbn [bp calls infl log sampled free]; auto.
    + lia.
    + now apply pressure_bound.
    + cbn [last_heard]. now apply in_flight_busy.
  - injection E as <-. pose proof (bp_free_inv n (S c) None _ B) as B'.
    pose proof (held_free_all_log n _ _ (S c) H) as H'.
    constructor; cbn [bp calls infl log sampled free_all]; auto.
    + lia.
    + now apply pressure_bound.
    + cbn [last_heard]. now apply in_flight_busy.
  - injection E as <-. pose proof (bp_free_inv n 0 (Some (m mod n)) _ B) as B'.
    pose proof (held_free_log n _ _ 0 m H) as H'.
    pose proof (free_pressure_le n (bp s) 0 (m mod n) B).
    constructor; cbn [bp calls infl log free]; auto. intros Z0. specialize (L Z0). lia.
  - injection E as <-. constructor; cbn [bp calls infl log note]; auto.
Qed.

Lemma inv_run n l s : 0 < n -> run n l s -> Inv n s.
Proof. intros Hn. induction 1; eauto using inv_init, inv_step. Qed.

Lemma pressure_run n l s : 0 < n -> run n l s -> pressure (bp s) = Z.of_nat (in_flight n (log s)).
Proof. intros Hn R. pose proof (inv_run n l s Hn R) as I. apply in_flight_busy; apply I. Qed.


Definition skips (P : list fact -> Prop) : Prop :=
  forall f h, (forall z, f <> Reported z) -> P h -> P (f :: h).

Lemma skip_step (P : list fact -> Prop) n s e s' : skips P -> step n s e = Some s' ->
  (e = Snapshot -> P (log s) -> P (Reported (infl s) :: log s)) -> P (log s) -> P (log s').
Proof.
  intros SK E R Hs. destruct e as [|k loc todo|k ok|k|c m|c|m|]; cbn [step] in E;
    try (destruct (nth_error (calls s) k) as [[m|m [|d r]]|]; try discriminate);
    injection E as <-; try destruct loc; try destruct ok;
    cbn [log set_calls note lease sampled free free_all]; auto;
    repeat (apply SK; [discriminate|]); auto.
Qed.

Lemma skips_bounded n : skips (reports_bounded n).
Proof. intros [] h H; cbn; auto. now destruct (H z). Qed.
Lemma skips_not_below n : skips (reports_not_below n).
Proof. intros [] h H; cbn; auto. now destruct (H z). Qed.
Lemma skips_heard n : skips (reports_last_heard n).
Proof. intros [] h H; cbn; auto. now destruct (H z). Qed.
Lemma skips_right n : skips (reports_right n).
Proof. intros [] h H; cbn; auto. now destruct (H z). Qed.

Lemma reports_ok n l s : 0 < n -> run n l s ->
  reports_bounded n (log s) /\ reports_not_below n (log s) /\ reports_last_heard n (log s).
Proof.
  intros Hn R. induction R as [|l s e s' R (A & B & C) E]; [cbn; tauto|].
  pose proof (inv_run n l s Hn R) as I. pose proof (pressure_run n l s Hn R) as P.
  split; [|split].
  - eapply skip_step; eauto using skips_bounded. intros _ _. cbn. split; [apply I|exact A].
  - eapply skip_step; eauto using skips_not_below. intros _ _. cbn. split; [|exact B].
    rewrite (i_way _ _ I). intros Z0. rewrite <- P. now apply (i_below _ _ I).
  - eapply skip_step; eauto using skips_heard. intros _ _. cbn. split; [|exact C]. apply I.
Qed.

Lemma remote_right n l s : 0 < n -> run n l s -> nothing_local l ->
  reports_right n (log s) /\ infl s = pressure (bp s).
Proof.
  intros Hn R. induction R as [|l s e s' R IH E]; intros N; [cbn; tauto|].
  assert (N' : nothing_local l) by (intros x Hx; apply N, in_or_app; now left).
  assert (Ne := N e). specialize (Ne ltac:(apply in_or_app; right; now left)).
  destruct (IH N') as [A B]. pose proof (pressure_run n l s Hn R) as P. split.
  - eapply skip_step; eauto using skips_right. intros _ _. cbn. split; [congruence|exact A].
  - destruct e as [|k loc todo|k ok|k|c m|c|m|]; cbn [step] in E;
      try (destruct (nth_error (calls s) k) as [[m|m [|d r]]|]; try discriminate);
      injection E as <-; cbn in Ne; subst; try destruct ok; cbn; auto; contradiction.
Qed.
