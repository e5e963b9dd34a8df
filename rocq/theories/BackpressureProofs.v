From Coq Require Import List ZArith Arith Bool Lia.
From Verif Require Import BackpressureModel BackpressureSpec.
Import ListNotations.

Lemma mem_In u l : mem u l = true <-> In u l.
Proof.
  unfold mem. rewrite existsb_exists. split.
  - intros (x & Hx & E). apply Nat.eqb_eq in E. now subst.
  - intros H. exists u. split; [exact H|apply Nat.eqb_refl].
Qed.

Lemma nth_error_set_nth {A} i j (x : A) l :
  nth_error (set_nth i x l) j = if Nat.eqb i j then (if j <? length l then Some x else None) else nth_error l j.
Proof.
  revert i j; induction l as [|y l IH]; intros i j.
  - cbn. destruct i, j; cbn; try reflexivity. destruct (i =? j); reflexivity.
  - destruct i as [|i], j as [|j]; cbn [set_nth nth_error Nat.eqb]; try reflexivity.
    rewrite IH. cbn [length]. reflexivity.
Qed.

Lemma set_nth_length {A} i (x : A) l : length (set_nth i x l) = length l.
Proof. revert i; induction l as [|y l IH]; intros [|i]; cbn; congruence. Qed.

Definition held_in (p : backpressure) (u i : nat) : Prop :=
  exists b, nth_error (buffers p) i = Some b /\ In u (leases b).

Fixpoint count_busy (l : list buffer_lease) : nat :=
  match l with [] => 0 | b :: l' => (if empty b then 0 else 1) + count_busy l' end.

Definition buf_ok (b : buffer_lease) : Prop := (empty b = true <-> leases b = []) /\ NoDup (leases b).

Record bp_inv (n : nat) (p : backpressure) : Prop := {
  inv_len : length (buffers p) = n;
  inv_buf : forall b, In b (buffers p) -> buf_ok b;
  inv_pressure : pressure p = Z.of_nat (count_busy (buffers p));
  inv_all : all_empty p = true <-> pressure p = 0%Z }.

Lemma In_set_nth {A} i (x y : A) l : In y (set_nth i x l) -> y = x \/ In y l.
Proof.
  revert i; induction l as [|z l IH]; intros [|i]; cbn; auto; intros [->|H]; auto.
  destruct (IH _ H); auto.
Qed.

Lemma count_busy_set i x l b : nth_error l i = Some b ->
  count_busy (set_nth i x l) + (if empty b then 0 else 1) = count_busy l + (if empty x then 0 else 1).
Proof.
  revert i; induction l as [|y l IH]; intros [|i] H; cbn in *; try discriminate.
  - injection H as ->. lia.
  - specialize (IH i H). lia.
Qed.

Lemma count_busy_pos i l b : nth_error l i = Some b -> empty b = false -> 0 < count_busy l.
Proof.
  revert i; induction l as [|y l IH]; intros [|i] H E; cbn in *; try discriminate.
  - injection H as ->. rewrite E. lia.
  - specialize (IH i H E). lia.
Qed.

Lemma lease_add_ok u b : buf_ok b -> buf_ok (lease_add u b).
Proof.
  intros [H N]. unfold lease_add, buf_ok. cbn. destruct (mem u (leases b)) eqn:E.
  - split; [|exact N]. split; [discriminate|]. intros E'. apply mem_In in E. rewrite E' in E. destruct E.
  - split; [split; [discriminate|intros E'; discriminate]|]. constructor; [|exact N].
    rewrite <- mem_In. congruence.
Qed.

Lemma filter_NoDup {A} (f : A -> bool) l : NoDup l -> NoDup (filter f l).
Proof.
  induction 1 as [|x l Hx Hn IH]; cbn; [constructor|]. destruct (f x); [|exact IH].
  constructor; [|exact IH]. rewrite filter_In. tauto.
Qed.

Lemma lease_remove_ok u b b' : buf_ok b -> lease_remove u b = Some b' -> buf_ok b'.
Proof.
  intros [H N]. unfold lease_remove. destruct (mem u (leases b)) eqn:E; [|discriminate].
  intros [= <-]. unfold buf_ok. cbn. split; [|now apply filter_NoDup].
  destruct (filter _ (leases b)) eqn:F; [tauto|]. split; [|discriminate].
  intros E'. apply H in E'. rewrite E' in F. discriminate.
Qed.

Lemma lease_remove_In u b b' v : lease_remove u b = Some b' -> (In v (leases b') <-> v <> u /\ In v (leases b)).
Proof.
  unfold lease_remove. destruct (mem u (leases b)); [|discriminate]. intros [= <-]. cbn.
  rewrite filter_In, negb_true_iff, Nat.eqb_neq. split; intros [? ?]; split; auto.
Qed.

Lemma lease_remove_busy u b b' : buf_ok b -> lease_remove u b = Some b' -> empty b = false.
Proof.
  intros [H _]. unfold lease_remove. destruct (mem u (leases b)) eqn:E; [|discriminate]. intros _.
  destruct (empty b) eqn:Ee; [|reflexivity].
  assert (leases b = []) by now apply H. rewrite H0 in E. discriminate.
Qed.

Lemma bp_lease_inv n p u i : bp_inv n p -> bp_inv n (bp_lease u i p).
Proof.
  intros I. unfold bp_lease. destruct (nth_error (buffers p) i) as [b|] eqn:E; [|exact I].
  destruct I as [Hl Hb Hp Ha].
  pose proof (count_busy_set i (lease_add u b) (buffers p) b E) as C. cbn [lease_add empty] in C.
  constructor; cbn.
  - now rewrite set_nth_length.
  - intros x Hx. apply In_set_nth in Hx as [->|Hx]; [|auto]. apply lease_add_ok, Hb. eapply nth_error_In; eauto.
  - destruct (empty b); lia.
  - split; [discriminate|]. intros E0. exfalso. pose proof (count_busy_pos i _ b E) as P.
    destruct (empty b); [lia|]. specialize (P eq_refl). lia.
Qed.

(** [bp_free1] keeps everything except that [all_empty] may lag behind. *)
Record bp_inv' (n : nat) (p : backpressure) : Prop := {
  inv_len' : length (buffers p) = n;
  inv_buf' : forall b, In b (buffers p) -> buf_ok b;
  inv_pressure' : pressure p = Z.of_nat (count_busy (buffers p));
  inv_all' : all_empty p = true -> pressure p = 0%Z }.

Lemma inv_weaken n p : bp_inv n p -> bp_inv' n p.
Proof. intros [? ? ? ?]. constructor; tauto. Qed.

Lemma bp_free1_inv n u p i : bp_inv' n p -> bp_inv' n (bp_free1 u p i).
Proof.
  intros I. unfold bp_free1. destruct (nth_error (buffers p) i) as [b|] eqn:E; [|exact I].
  destruct (lease_remove u b) as [b'|] eqn:R; [|exact I].
  destruct I as [Hl Hb Hp Ha].
  pose proof (Hb b (nth_error_In _ _ E)) as Ob.
  pose proof (lease_remove_busy u b b' Ob R) as Bb.
  pose proof (count_busy_set i b' (buffers p) b E) as C. rewrite Bb in C.
  constructor; cbn.
  - now rewrite set_nth_length.
  - intros x Hx. apply In_set_nth in Hx as [->|Hx]; [|auto]. eapply lease_remove_ok; eauto.
  - destruct (empty b'); lia.
  - intros A. specialize (Ha A). destruct (empty b'); lia.
Qed.

Lemma bp_free_inv n u o p : bp_inv n p -> bp_inv n (bp_free u o p).
Proof.
  intros I. unfold bp_free.
  set (p' := match o with None => fold_left (bp_free1 u) (seq 0 (length (buffers p))) p | Some i => bp_free1 u p i end).
  assert (I' : bp_inv' n p').
  { subst p'. destruct o as [i|]; [now apply bp_free1_inv, inv_weaken|].
    generalize (seq 0 (length (buffers p))). intros l. apply inv_weaken in I. revert p I.
    induction l as [|j l IH]; intros p I; cbn; [exact I|]. apply IH. now apply bp_free1_inv. }
  destruct I' as [Hl Hb Hp Ha]. constructor; cbn; auto.
  unfold bp_is_empty. destruct (Z.eqb_spec (pressure p') 0); [tauto|]. split; [exact Ha|contradiction].
Qed.

Lemma bp_new_inv n : bp_inv n (bp_new n).
Proof.
  constructor; cbn.
  - apply repeat_length.
  - intros b Hb. apply repeat_spec in Hb. subst. split; cbn; [tauto|constructor].
  - induction n; cbn; lia.
  - tauto.
Qed.

Lemma bp_step_inv n p o : bp_inv n p -> bp_inv n (bp_step p o).
Proof. destruct o; cbn; [apply bp_lease_inv|apply bp_free_inv]. Qed.

Lemma bp_run_snoc n ops o : bp_run n (ops ++ [o]) = bp_step (bp_run n ops) o.
Proof. unfold bp_run. now rewrite fold_left_app. Qed.

Lemma bp_run_inv n ops : bp_inv n (bp_run n ops).
Proof.
  induction ops as [|o ops IH] using rev_ind; [apply bp_new_inv|].
  rewrite bp_run_snoc. now apply bp_step_inv.
Qed.

Lemma held_lease p u i v j : held_in (bp_lease u i p) v j <-> (v = u /\ j = i /\ i < length (buffers p)) \/ held_in p v j.
Proof.
  unfold bp_lease, held_in. destruct (nth_error (buffers p) i) as [b|] eqn:E.
  - assert (Hi : i < length (buffers p)) by (apply nth_error_Some; congruence). cbn [buffers].
    split.
    + intros (x & Hx & Hv). rewrite nth_error_set_nth in Hx.
      destruct (Nat.eqb_spec i j) as [<-|Hn]; [|right; eauto].
      destruct (Nat.ltb_spec i (length (buffers p))); [|discriminate]. injection Hx as <-.
      cbn in Hv. destruct (mem u (leases b)); [right; eauto|]. destruct Hv as [->|Hv]; [left; auto|right; eauto].
    + intros [(-> & -> & _)|(x & Hx & Hv)].
      * exists (lease_add u b). rewrite nth_error_set_nth, Nat.eqb_refl.
        destruct (Nat.ltb_spec i (length (buffers p))); [|lia]. split; [reflexivity|].
        cbn. destruct (mem u (leases b)) eqn:M; [now apply mem_In|now left].
      * destruct (Nat.eq_dec i j) as [<-|Hn].
        -- exists (lease_add u b). rewrite nth_error_set_nth, Nat.eqb_refl.
           destruct (Nat.ltb_spec i (length (buffers p))); [|lia]. split; [reflexivity|].
           rewrite E in Hx. injection Hx as <-. cbn. destruct (mem u (leases b)); [exact Hv|now right].
        -- exists x. rewrite nth_error_set_nth. destruct (Nat.eqb_spec i j); [contradiction|auto].
  - apply nth_error_None in E. split; [tauto|]. intros [(_ & _ & ?)|H]; [lia|exact H].
Qed.

Lemma held_free1 p u i v j : held_in (bp_free1 u p i) v j <-> ~ (v = u /\ j = i) /\ held_in p v j.
Proof.
  unfold bp_free1, held_in. destruct (nth_error (buffers p) i) as [b|] eqn:E.
  2:{ split; [|tauto]. intros (x & Hx & Hv). split; [|eauto]. intros [-> ->]. congruence. }
  assert (Hi : i < length (buffers p)) by (apply nth_error_Some; congruence).
  destruct (lease_remove u b) as [b'|] eqn:R.
  - cbn [buffers]. split.
    + intros (x & Hx & Hv). rewrite nth_error_set_nth in Hx.
      destruct (Nat.eqb_spec i j) as [<-|Hn].
      * destruct (Nat.ltb_spec i (length (buffers p))); [|discriminate]. injection Hx as <-.
        apply (lease_remove_In u b b' v R) in Hv as [H1 H2]. split; [tauto|eauto].
      * split; [|eauto]. intros [_ ->]. contradiction.
    + intros [Hn (x & Hx & Hv)].
      destruct (Nat.eq_dec i j) as [<-|Hij].
      * exists b'. rewrite nth_error_set_nth, Nat.eqb_refl.
        destruct (Nat.ltb_spec i (length (buffers p))); [|lia]. split; [reflexivity|].
        apply (lease_remove_In u b b' v R). rewrite E in Hx. injection Hx as <-. split; [tauto|exact Hv].
      * exists x. rewrite nth_error_set_nth. destruct (Nat.eqb_spec i j); [contradiction|auto].
  - split; [|tauto]. intros (x & Hx & Hv). split; [|eauto]. intros [-> ->].
    rewrite E in Hx. injection Hx as <-. unfold lease_remove in R.
    apply mem_In in Hv. rewrite Hv in R. discriminate.
Qed.

Lemma free1_length u p i : length (buffers (bp_free1 u p i)) = length (buffers p).
Proof.
  unfold bp_free1. destruct (nth_error (buffers p) i); [|reflexivity].
  destruct (lease_remove u b); [|reflexivity]. cbn. apply set_nth_length.
Qed.

Lemma held_free_all l : forall p u v j,
  held_in (fold_left (bp_free1 u) l p) v j <-> ~ (v = u /\ In j l) /\ held_in p v j.
Proof.
  induction l as [|i l IH]; intros p u v j; cbn [fold_left In]; [tauto|].
  rewrite IH, held_free1. split.
  - intros (A & B & C). split; [|exact C]. intros (-> & [->|H]); tauto.
  - intros (A & C). repeat split; auto. intros (-> & H). apply A. auto. intros (-> & ->). apply A. auto.
Qed.

Lemma held_bound p v j : held_in p v j -> j < length (buffers p).
Proof. intros (b & E & _). apply nth_error_Some. congruence. Qed.

Lemma held_free p u o v j : held_in (bp_free u o p) v j <->
  match o with None => v <> u | Some i => ~ (v = u /\ j = i) end /\ held_in p v j.
Proof.
  unfold bp_free. destruct o as [i|].
  - change (held_in (bp_free1 u p i) v j <-> ~ (v = u /\ j = i) /\ held_in p v j). apply held_free1.
  - change (held_in (fold_left (bp_free1 u) (seq 0 (length (buffers p))) p) v j <-> v <> u /\ held_in p v j).
    rewrite held_free_all. split; intros [A B]; (split; [|exact B]).
    + intros ->. apply A. split; [reflexivity|]. apply in_seq. apply held_bound in B. lia.
    + tauto.
Qed.

Lemma run_held n ops u i : held_in (bp_run n ops) u i <-> held n (rev ops) u i.
Proof.
  revert u i; induction ops as [|o ops IH] using rev_ind; intros u i.
  - cbn. split; [|tauto]. intros (b & E & H). apply nth_error_In, repeat_spec in E. subst. destruct H.
  - rewrite bp_run_snoc, rev_app_distr. cbn [rev app held].
    pose proof (inv_len _ _ (bp_run_inv n ops)) as L.
    destruct o as [v j|v [j|]]; cbn [bp_step].
    + rewrite held_lease, IH, L. split; (intros [H|H]; [left|right; exact H]).
      * destruct H as (-> & -> & ?). auto.
      * destruct H as (-> & -> & ?). auto.
    + now rewrite held_free, IH.
    + now rewrite held_free, IH.
Qed.

Lemma empty_iff n p i : bp_inv n p -> i < n ->
  exists b, nth_error (buffers p) i = Some b /\ (empty b = true <-> forall u, ~ held_in p u i).
Proof.
  intros I Hi. destruct (nth_error (buffers p) i) as [b|] eqn:E.
  2:{ apply nth_error_None in E. rewrite (inv_len _ _ I) in E. lia. }
  exists b. split; [reflexivity|].
  destruct (inv_buf _ _ I b (nth_error_In _ _ E)) as [H _]. rewrite H. split.
  - intros El u (x & Hx & Hu). rewrite E in Hx. injection Hx as <-. rewrite El in Hu. destruct Hu.
  - intros A. destruct (leases b) as [|u l] eqn:El; [reflexivity|]. exfalso. apply (A u). exists b.
    split; [exact E|]. rewrite El. now left.
Qed.

Lemma available_iff n ops i : i < n ->
  (bp_available (bp_run n ops) i = Some true <-> forall u, ~ held n (rev ops) u i) /\
  (bp_available (bp_run n ops) i = Some (bp_wait_passes (bp_run n ops) i)).
Proof.
  intros Hi. destruct (empty_iff n _ i (bp_run_inv n ops) Hi) as (b & E & H).
  unfold bp_available, bp_wait_passes. rewrite E. split; [|reflexivity].
  assert (Q : (forall u, ~ held_in (bp_run n ops) u i) <-> (forall u, ~ held n (rev ops) u i)).
  { split; intros A u Hu; apply (A u); now apply run_held. }
  rewrite <- Q, <- H. split; congruence.
Qed.

Lemma count_busy_zero l : count_busy l = 0 <-> forall b, In b l -> empty b = true.
Proof.
  induction l as [|b l IH]; cbn; [tauto|]. split.
  - intros H x [<-|Hx]; [destruct (empty b); [reflexivity|lia]|]. apply IH; [destruct (empty b); lia|exact Hx].
  - intros H. rewrite (H b) by auto. apply IH. auto.
Qed.

Lemma all_empty_iff n ops :
  (bp_sync_passes (bp_run n ops) = true <-> forall u i, ~ held n (rev ops) u i) /\
  bp_is_empty (bp_run n ops) = bp_sync_passes (bp_run n ops).
Proof.
  pose proof (bp_run_inv n ops) as I. unfold bp_sync_passes, bp_is_empty. split.
  - rewrite (inv_all _ _ I), (inv_pressure _ _ I). split.
    + intros H u i Hu. apply run_held in Hu. destruct Hu as (b & E & Hb).
      assert (Z : count_busy (buffers (bp_run n ops)) = 0) by lia.
      pose proof (nth_error_In _ _ E) as Hin.
      pose proof (proj1 (count_busy_zero _) Z b Hin) as Em.
      destruct (inv_buf _ _ I b Hin) as [H1 _]. apply H1 in Em. rewrite Em in Hb. destruct Hb.
    + intros A. enough (count_busy (buffers (bp_run n ops)) = 0) by lia.
      apply count_busy_zero. intros b Hb. apply (inv_buf _ _ I b Hb).
      destruct (leases b) as [|u l] eqn:El; [reflexivity|]. exfalso.
      apply In_nth_error in Hb as [i Hi]. apply (A u i), run_held. exists b. split; [exact Hi|]. rewrite El. now left.
  - destruct (Z.eqb_spec (pressure (bp_run n ops)) 0) as [E|E].
    + symmetry. now apply (inv_all _ _ I).
    + destruct (all_empty (bp_run n ops)) eqn:A; [|reflexivity]. exfalso. apply E. now apply (inv_all _ _ I).
Qed.

Lemma set_nth_same {A} i (x : A) l : nth_error l i = Some x -> set_nth i x l = l.
Proof. revert i; induction l as [|y l IH]; intros [|i] H; cbn in *; try congruence. now rewrite IH. Qed.

Lemma free1_not_held p u i : ~ held_in p u i -> bp_free1 u p i = p.
Proof.
  intros H. unfold bp_free1. destruct (nth_error (buffers p) i) as [b|] eqn:E; [|reflexivity].
  unfold lease_remove. destruct (mem u (leases b)) eqn:M; [|reflexivity].
  exfalso. apply H. exists b. split; [exact E|]. now apply mem_In.
Qed.

Lemma free_not_held_run n ops u o :
  (forall i, match o with None => True | Some j => i = j end -> ~ held n (rev ops) u i) ->
  bp_run n (ops ++ [Free u o]) = bp_run n ops.
Proof.
  intros H. rewrite bp_run_snoc. cbn [bp_step].
  pose proof (bp_run_inv n ops) as I. unfold bp_free.
  assert (E : match o with None => fold_left (bp_free1 u) (seq 0 (length (buffers (bp_run n ops)))) (bp_run n ops)
              | Some i => bp_free1 u (bp_run n ops) i end = bp_run n ops).
  { destruct o as [i|].
    - apply free1_not_held. intros Hh. apply run_held in Hh. now apply (H i).
    - generalize (seq 0 (length (buffers (bp_run n ops)))). intros l.
      assert (G : forall i, ~ held_in (bp_run n ops) u i) by (intros i Hh; apply run_held in Hh; now apply (H i)).
      induction l as [|j l IH]; cbn; [reflexivity|]. now rewrite free1_not_held. }
  rewrite E. pose proof (proj2 (all_empty_iff n ops)) as Q. unfold bp_sync_passes in Q.
  destruct (bp_run n ops) as [bs ae pr]. cbn in *. rewrite Q. destruct ae; reflexivity.
Qed.

(** The number of busy buffers. *)
Lemma pressure_counts n ops :
  exists busy, NoDup busy /\ (forall i, In i busy <-> exists u, held n (rev ops) u i) /\
    pressure (bp_run n ops) = Z.of_nat (length busy).
Proof.
  pose proof (bp_run_inv n ops) as I. rewrite (inv_pressure _ _ I).
  assert (G : forall l, (forall b, In b l -> buf_ok b) -> forall k,
    exists busy, NoDup busy /\ (forall i, In i busy <-> exists u b, k <= i /\ nth_error l (i - k) = Some b /\ In u (leases b)) /\ count_busy l = length busy).
  { induction l as [|b l IH]; intros Hok k.
    - exists []. split; [constructor|]. split; [|reflexivity]. intros i. split; [intros []|].
      intros (u & b & _ & E & _). destruct (i - k); discriminate.
    - destruct (IH (fun c Hc => Hok c (or_intror Hc)) (S k)) as (busy & Nd & Hb & Hc).
      assert (Hmove : forall i, (exists u b', S k <= i /\ nth_error l (i - S k) = Some b' /\ In u (leases b')) <->
                                (i <> k /\ exists u b', k <= i /\ nth_error (b :: l) (i - k) = Some b' /\ In u (leases b'))).
      { intros i. split.
        - intros (u & b' & Hi & E & Hu). split; [lia|]. exists u, b'. split; [lia|].
          replace (i - k) with (S (i - S k)) by lia. auto.
        - intros (Hne & u & b' & Hi & E & Hu). exists u, b'. split; [lia|].
          replace (i - k) with (S (i - S k)) in E by lia. auto. }
      destruct (Hok b (or_introl eq_refl)) as [He _].
      destruct (empty b) eqn:Ee.
      + exists busy. split; [exact Nd|]. split; [|cbn; rewrite Ee; exact Hc].
        intros i. rewrite Hb, Hmove. split; [tauto|]. intros (u & b' & Hi & E & Hu). split; [|eauto 10].
        intros ->. rewrite Nat.sub_diag in E. cbn in E. injection E as <-.
        rewrite (proj1 He eq_refl) in Hu. destruct Hu.
      + exists (k :: busy). split; [constructor; [|exact Nd]|]; [|split].
        * rewrite Hb, Hmove. tauto.
        * intros i. cbn [In]. rewrite Hb, Hmove. split.
          -- intros [<-|[_ H]]; [|exact H]. destruct (leases b) as [|u us] eqn:El.
             ++ exfalso. pose proof (proj2 He eq_refl). congruence.
             ++ exists u, b. rewrite Nat.sub_diag, El. cbn. auto.
          -- intros H. destruct (Nat.eq_dec k i); [auto|]. right. split; [congruence|exact H].
        * cbn. rewrite Ee, Hc. reflexivity. }
  destruct (G _ (inv_buf _ _ I) 0) as (busy & Nd & Hb & Hc).
  exists busy. split; [exact Nd|]. split; [|now rewrite Hc].
  intros i. rewrite Hb. split.
  - intros (u & b & _ & E & Hu). rewrite Nat.sub_0_r in E. exists u. apply run_held. exists b. auto.
  - intros (u & Hu). apply run_held in Hu as (b & E & Hu). exists u, b. rewrite Nat.sub_0_r. split; [lia|auto].
Qed.
