(** Proofs for C77. *)
From Coq Require Import List Arith Bool Lia Sorting.Sorted.
From Verif Require Import SpinSpec RecvModel RecvSpec.
Import ListNotations.

Lemma steps_app s es es' : steps s (es ++ es') = match steps s es with Some s1 => steps s1 es' | None => None end.
Proof. revert s. induction es as [|e es IH]; intros s; cbn; [reflexivity|]. destruct (step s e); auto. Qed.

Lemma steps_snoc s es e s' : steps s (es ++ [e]) = Some s' -> exists s1, steps s es = Some s1 /\ step s1 e = Some s'.
Proof.
  rewrite steps_app. destruct (steps s es) as [s1|]; [|discriminate]. intros H. exists s1. split; [reflexivity|].
  cbn in H. destruct (step s1 e); exact H.
Qed.

Lemma upd_eq {A : Type} (f : nat -> A) i x : upd f i x i = x.
Proof. unfold upd. now rewrite Nat.eqb_refl. Qed.
Lemma upd_neq {A : Type} (f : nat -> A) i j x : j <> i -> upd f i x j = f j.
Proof. intros H. unfold upd. apply Nat.eqb_neq in H. now rewrite H. Qed.

(** * Subsequences *)
Lemma subsequence_refl {A : Type} (a : list A) : subsequence a a.
Proof. induction a; [constructor|now apply sub_keep]. Qed.

Lemma subsequence_app {A : Type} (a b c d : list A) : subsequence a b -> subsequence c d -> subsequence (a ++ c) (b ++ d).
Proof. induction 1; cbn; intros H1; [exact H1|apply sub_skip; auto|apply sub_keep; auto]. Qed.

Lemma subsequence_nil {A : Type} (a : list A) : subsequence [] a.
Proof. induction a; now constructor. Qed.

Lemma subsequence_trans {A : Type} (b c : list A) : subsequence b c -> forall a, subsequence a b -> subsequence a c.
Proof.
  induction 1 as [|x b c _ IH|x b c _ IH]; intros a H1; [exact H1|apply sub_skip; auto|].
  inversion H1; subst; [apply sub_skip|apply sub_keep]; auto.
Qed.

Lemma subsequence_length {A : Type} (a b : list A) : subsequence a b -> length a <= length b.
Proof. induction 1; cbn; lia. Qed.

Lemma subsequence_same {A : Type} (a b : list A) : subsequence a b -> length b <= length a -> a = b.
Proof.
  induction 1 as [|x a b H1 IH|x a b H1 IH]; cbn; intros L; [reflexivity| |f_equal; apply IH; lia].
  apply subsequence_length in H1. lia.
Qed.

Lemma subsequence_filter {A B : Type} (g : A -> B) (p q : A -> bool) l : (forall x, p x = true -> q x = true) ->
  subsequence (map g (filter p l)) (map g (filter q l)).
Proof.
  intros H. induction l as [|x l IH]; cbn; [constructor|]. destruct (p x) eqn:E.
  - rewrite (H x E). cbn. now apply sub_keep.
  - destruct (q x); cbn; [now apply sub_skip|exact IH].
Qed.

Lemma subsequence_filter_all {A B : Type} (g : A -> B) (p : A -> bool) l : subsequence (map g (filter p l)) (map g l).
Proof. induction l as [|x l IH]; cbn; [constructor|]. destruct (p x); cbn; [now apply sub_keep|now apply sub_skip]. Qed.

(** * The invariant *)
Definition fin (t : task) : bool := match t with Took _ | TCancelled => true | _ => false end.

Definition calls (s : state) : nat := match thread s with Idle => length (outcomes s) | _ => S (length (outcomes s)) end.

Record Inv (es : list event) (s : state) : Prop := {
  i_arr : arrived es = map snd (takes s) ++ queue s;
  i_take : forall j m, In (j, m) (takes s) <-> task_of s j = Took m;
  i_sorted : StronglySorted lt (map fst (takes s));
  i_later : forall j, calls s <= j -> task_of s j = NotYet /\ future_of s j = FPending;
  i_nodup : NoDup (jobs s);
  i_start : forall a j b, jobs s = a ++ Start j :: b ->
    task_of s j = NotYet /\ j < calls s /\ forall k, k < j -> fin (task_of s k) = true \/ In (Stop k) a;
  i_stop : forall a k b, jobs s = a ++ Stop k :: b -> k < length (outcomes s) /\ (task_of s k <> NotYet \/ In (Start k) a);
  i_prev : forall j, task_of s j <> NotYet -> forall k, k < j -> fin (task_of s k) = true;
  i_over : forall k, k < length (outcomes s) -> fin (task_of s k) = true \/ In (Stop k) (jobs s);
  i_fut : forall j m, future_of s j = FResult m -> task_of s j = Took m;
  i_sub : subsequence (returned s) (map snd (filter (fun p => fst p <? length (outcomes s)) (takes s)));
  i_out : forall j m, nth_error (outcomes s) j = Some (Some m) -> task_of s j = Took m;
  i_live : forall j, length (outcomes s) <= j -> future_of s j <> FCancelled;
  i_canc : forall j, task_of s j = TCancelled -> j < length (outcomes s);
  i_began : forall k, k < calls s -> task_of s k = NotYet -> In (Start k) (jobs s) }.

Lemma sorted_snoc l x : StronglySorted lt l -> (forall y, In y l -> y < x) -> StronglySorted lt (l ++ [x]).
Proof.
  induction l as [|a l IH]; cbn; intros H1 H2.
  - repeat constructor.
  - inversion H1 as [|? ? H3 H4]; subst. constructor; [apply IH; auto|]. apply Forall_app. split; [exact H4|].
    constructor; [|constructor]. apply H2. now left.
Qed.

(** The one with the greatest number is the last. *)
Lemma sorted_last (l : list (nat * note)) c m : StronglySorted lt (map fst l) -> In (c, m) l -> (forall j x, In (j, x) l -> j <= c) ->
  exists t, l = t ++ [(c, m)] /\ forall p, In p t -> fst p < c.
Proof.
  induction l as [|[j x] l IH]; cbn; intros H1 H2 H3; [contradiction|]. inversion H1 as [|? ? H4 H5]; subst.
  rewrite Forall_forall in H5. destruct H2 as [H2|H2].
  - injection H2 as -> ->. destruct l as [|[j y] l].
    + exists []. split; [reflexivity|]. intros p [].
    + exfalso. assert (K1 : c < j) by (apply H5; now left). assert (K2 : j <= c) by (eapply H3; right; left; reflexivity). lia.
  - destruct (IH H4 H2) as (t & -> & T); [eauto|]. exists ((j, x) :: t). split; [reflexivity|].
    intros p [<-|P]; [|auto]. cbn. apply H5. rewrite map_app. apply in_or_app. right. now left.
Qed.

Lemma filter_all {A : Type} (f : A -> bool) l : (forall x, In x l -> f x = true) -> filter f l = l.
Proof. induction l as [|x l IH]; cbn; intros H; [reflexivity|]. rewrite (H x) by now left. f_equal. auto. Qed.

Lemma returned_snoc s o : flat_map (fun o => match o with Some m => [m] | None => [] end) (outcomes s ++ [o]) =
  returned s ++ match o with Some m => [m] | None => [] end.
Proof. rewrite flat_map_app. unfold returned. cbn. now rewrite app_nil_r. Qed.

(** A split of a list with one more element. *)
Lemma split_snoc {A : Type} (l a b : list A) x y : l ++ [x] = a ++ y :: b ->
  (b = [] /\ l = a /\ x = y) \/ exists b', b = b' ++ [x] /\ l = a ++ y :: b'.
Proof.
  destruct (exists_last (l := y :: b)) as (c & z & E); [discriminate|]. destruct b as [|b0 b1].
  - intros H. apply app_inj_tail in H. left. destruct H. auto.
  - destruct (exists_last (l := b0 :: b1)) as (d & w & E2); [discriminate|]. rewrite E2. intros H. right. exists d.
    change (y :: d ++ [w]) with ((y :: d) ++ [w]) in H. rewrite app_assoc in H. apply app_inj_tail in H. destruct H as [-> ->]. auto.
Qed.

Lemma nodup_snoc {A : Type} (l : list A) x : NoDup l -> ~ In x l -> NoDup (l ++ [x]).
Proof.
  intros H1 H2. induction H1 as [|y l H3 H4 IH]; cbn; [constructor; [auto|constructor]|]. constructor.
  - intros K. apply in_app_or in K. destruct K as [K|[->|[]]]; [contradiction|]. apply H2. now left.
  - apply IH. intros K. apply H2. now right.
Qed.

Lemma inv_step es s e s' : Inv es s -> step s e = Some s' -> Inv (es ++ [e]) s'.
Proof.
  intros [A T SO LA ND ST SP PR OV FU SU OU LV CA BE] H. unfold calls, current in *.
  assert (AR : forall e0, (forall m, e0 <> Arrive m) -> arrived (es ++ [e0]) = arrived es).
  { intros e0 N. unfold arrived. rewrite flat_map_app. cbn. destruct e0; rewrite ?app_nil_r; auto. exfalso. eapply N. reflexivity. }
  destruct e as [m|lim| |j|j| | |]; cbn [step] in H.
  - (* Arrive *)
    injection H as <-. constructor; unfold calls; cbn; auto.
    unfold arrived in *. rewrite flat_map_app, A, app_assoc. reflexivity.
  - (* Recv *)
    destruct (thread s) eqn:TH; try discriminate. injection H as <-. unfold current in *. constructor; unfold calls; cbn; auto.
    + rewrite AR by discriminate. exact A.
    + intros j J. apply LA. lia.
    + apply nodup_snoc; [exact ND|]. intros K. apply in_split in K. destruct K as (a & b & K). destruct (ST _ _ _ K) as (_ & K1 & _). lia.
    + intros a j b K. apply split_snoc in K. destruct K as [(-> & <- & K)|(b' & -> & K)].
      * injection K as <-. destruct (LA (length (outcomes s)) (le_n _)) as [K1 _]. split; [exact K1|]. split; [lia|]. auto.
      * destruct (ST _ _ _ K) as (K1 & K2 & K3). split; [exact K1|]. split; [lia|exact K3].
    + intros a k b K. apply split_snoc in K. destruct K as [(-> & <- & K)|(b' & -> & K)]; [discriminate|]. exact (SP _ _ _ K).
    + intros k K. destruct (OV k K) as [K1|K1]; [now left|right]. apply in_or_app. now left.
    + intros k K1 K2. apply in_or_app. destruct (Nat.eq_dec k (length (outcomes s))) as [->|N]; [right; now left|left]. apply BE; [lia|exact K2].
  - (* Loop *)
    destruct (jobs s) as [|[j|j] r] eqn:J; [discriminate| |]; injection H as <-.
    + destruct (ST [] j r eq_refl) as (K1 & K2 & K3). inversion ND as [|? ? ND1 ND2]; subst.
      assert (F : forall k, fin (task_of s k) = true -> fin (upd (task_of s) j Ready k) = true).
      { intros k K. destruct (Nat.eq_dec k j) as [->|N]; [rewrite K1 in K; discriminate|now rewrite upd_neq]. }
      constructor; unfold calls; cbn; auto.
      * rewrite AR by discriminate. exact A.
      * intros k x. destruct (Nat.eq_dec k j) as [->|N]; [|rewrite upd_neq by exact N; apply T]. rewrite upd_eq, T, K1. split; discriminate.
      * intros k K. destruct (LA k K) as [L1 L2]. split; [|exact L2]. rewrite upd_neq; [exact L1|]. intros ->. lia.
      * intros a k b E. subst r. destruct (ST (Start j :: a) k b) as (E1 & E2 & E3); [reflexivity|].
        assert (N : k <> j). { intros ->. apply ND1. apply in_or_app. right. now left. }
        split; [now rewrite upd_neq|]. split; [exact E2|]. intros i I. destruct (E3 i I) as [E4|[E4|E4]]; [left; auto|discriminate|now right].
      * intros a k b E. subst r. destruct (SP (Start j :: a) k b) as (E1 & E2); [reflexivity|]. split; [exact E1|].
        destruct (Nat.eq_dec k j) as [->|N]; [left; rewrite upd_eq; discriminate|]. rewrite upd_neq by exact N.
        destruct E2 as [E2|[E2|E2]]; [now left|congruence|now right].
      * intros k K i I. destruct (Nat.eq_dec k j) as [->|N].
        -- apply F. destruct (K3 i I) as [K4|[]]. exact K4.
        -- rewrite upd_neq in K by exact N. apply F. exact (PR k K i I).
      * intros k K. destruct (OV k K) as [O|[O|O]]; [left; auto|discriminate|now right].
      * intros k x K. apply FU in K. rewrite upd_neq; [exact K|]. intros ->. congruence.
      * intros k x K. apply OU in K. rewrite upd_neq; [exact K|]. intros ->. congruence.
      * intros k K. apply CA. destruct (Nat.eq_dec k j) as [->|N]; [rewrite upd_eq in K; discriminate|now rewrite upd_neq in K].
      * intros k B1 B2. destruct (Nat.eq_dec k j) as [->|N]; [rewrite upd_eq in B2; discriminate|]. rewrite upd_neq in B2 by exact N.
        destruct (BE k B1 B2) as [B|B]; [congruence|exact B].
    + destruct (SP [] j r eq_refl) as (K1 & [K2|[]]). inversion ND as [|? ? ND1 ND2]; subst.
      set (tk := match task_of s j with Ready => upd (task_of s) j TCancelled | _ => task_of s end).
      assert (F : forall k, fin (task_of s k) = true -> tk k = task_of s k).
      { intros k K. unfold tk. destruct (task_of s j) eqn:E; auto. apply upd_neq. intros ->. rewrite E in K. discriminate. }
      assert (FJ : fin (tk j) = true).
      { unfold tk. destruct (task_of s j) eqn:E; rewrite ?upd_eq, ?E; try reflexivity. congruence. }
      assert (F2 : forall k, k <> j -> tk k = task_of s k).
      { intros k K. unfold tk. destruct (task_of s j); auto. now apply upd_neq. }
      assert (F3 : forall k x, tk k = Took x <-> task_of s k = Took x).
      { intros k x. destruct (Nat.eq_dec k j) as [->|N]; [|now rewrite F2]. unfold tk. destruct (task_of s j) eqn:E; rewrite ?upd_eq, ?E; split; congruence. }
      assert (F4 : forall k, tk k = NotYet <-> task_of s k = NotYet).
      { intros k. destruct (Nat.eq_dec k j) as [->|N]; [|now rewrite F2]. unfold tk. destruct (task_of s j) eqn:E; rewrite ?upd_eq, ?E; split; congruence. }
      constructor; unfold calls; cbn; fold tk; auto.
      * rewrite AR by discriminate. exact A.
      * intros k x. now rewrite F3.
      * intros k K. destruct (LA k K) as [L1 L2]. split; [now apply F4|exact L2].
      * intros a k b E. subst r. destruct (ST (Stop j :: a) k b) as (E1 & E2 & E3); [reflexivity|].
        split; [now apply F4|]. split; [exact E2|]. intros i I. destruct (E3 i I) as [E4|[E4|E4]]; [left; now rewrite F| |now right].
        injection E4 as <-. now left.
      * intros a k b E. subst r. destruct (SP (Stop j :: a) k b) as (E1 & E2); [reflexivity|]. split; [exact E1|].
        destruct E2 as [E2|[E2|E2]]; [left; now rewrite F4|discriminate|now right].
      * intros k K i I. rewrite F4 in K. rewrite F; [exact (PR k K i I)|exact (PR k K i I)].
      * intros k K. destruct (OV k K) as [O|[O|O]]; [left; now rewrite F|injection O as <-; now left|now right].
      * intros k x K. apply F3. now apply FU.
      * intros k x K. apply F3. now apply OU.
      * intros k K. destruct (Nat.eq_dec k j) as [->|N]; [exact K1|]. rewrite F2 in K by exact N. auto.
      * intros k B1 B2. rewrite F4 in B2. destruct (BE k B1 B2) as [B|B]; [discriminate|exact B].
  - (* Run *)
    destruct (task_of s j) eqn:TJ; try discriminate. destruct (queue s) as [|m q] eqn:Q; [discriminate|]. injection H as <-.
    assert (F : forall k, fin (task_of s k) = true -> fin (upd (task_of s) j (Took m) k) = true).
    { intros k K. unfold upd. destruct (k =? j); [reflexivity|exact K]. }
    constructor; unfold calls; cbn; auto.
    + rewrite AR, A, map_app, <- app_assoc by discriminate. reflexivity.
    + intros k x. rewrite in_app_iff, T. destruct (Nat.eq_dec k j) as [->|N].
      * rewrite upd_eq, TJ. split; [intros [K|[K|[]]]; [discriminate|injection K as <-; reflexivity]|]. intros K. injection K as <-. right. now left.
      * rewrite upd_neq by exact N. split; [intros [K|[K|[]]]; [exact K|congruence]|now left].
    + rewrite map_app. apply sorted_snoc; [exact SO|]. intros y Y. apply in_map_iff in Y. destruct Y as ([k x] & <- & Y). cbn.
      apply T in Y. destruct (lt_eq_lt_dec k j) as [[L|L]|L]; [exact L|congruence|].
      assert (X : fin (task_of s j) = true) by (apply (PR k); [congruence|exact L]). rewrite TJ in X. discriminate.
    + intros k K. destruct (LA k K) as [L1 L2]. split; [|exact L2]. rewrite upd_neq; [exact L1|]. intros ->. congruence.
    + intros a k b E. destruct (ST a k b E) as (E1 & E2 & E3). split; [rewrite upd_neq; [exact E1|]; intros ->; congruence|].
      split; [exact E2|]. intros i I. destruct (E3 i I); [left; auto|now right].
    + intros a k b E. destruct (SP a k b E) as (E1 & [E2|E2]); (split; [exact E1|]); [left|now right].
      unfold upd. destruct (k =? j); [discriminate|exact E2].
    + intros k K i I. apply F. apply (PR k); [|exact I]. destruct (Nat.eq_dec k j) as [->|N]; [congruence|now rewrite upd_neq in K].
    + intros k K. destruct (OV k K); [left; auto|now right].
    + intros k x K. apply FU in K. rewrite upd_neq; [exact K|]. intros ->. congruence.
    + unfold returned. cbn. rewrite filter_app, map_app. rewrite <- (app_nil_r (flat_map _ _)). apply subsequence_app; [exact SU|apply subsequence_nil].
    + intros k x K. apply OU in K. rewrite upd_neq; [exact K|]. intros ->. congruence.
    + intros k K. apply CA. destruct (Nat.eq_dec k j) as [->|N]; [rewrite upd_eq in K; discriminate|now rewrite upd_neq in K].
    + intros k B1 B2. apply BE; [exact B1|]. destruct (Nat.eq_dec k j) as [->|N]; [rewrite upd_eq in B2; discriminate|now rewrite upd_neq in B2].
  - (* Deliver *)
    destruct (task_of s j) as [| |m|] eqn:TJ; try discriminate. destruct (future_of s j) eqn:FJ; try discriminate. injection H as <-.
    constructor; unfold calls; cbn; auto.
    + rewrite AR by discriminate. exact A.
    + intros k K. destruct (LA k K) as [L1 L2]. split; [exact L1|]. rewrite upd_neq; [exact L2|]. intros ->. congruence.
    + intros k x K. destruct (Nat.eq_dec k j) as [->|N]; [rewrite upd_eq in K; congruence|rewrite upd_neq in K by exact N; auto].
    + intros k K. unfold upd. destruct (k =? j); [discriminate|auto].
  - (* TimeOut *)
    destruct (thread s) as [|[|]|] eqn:TH; try discriminate. destruct (future_of s (current s)); try discriminate. injection H as <-.
    constructor; unfold calls; cbn; auto. rewrite AR by discriminate. exact A.
  - (* GiveUp *)
    destruct (thread s) eqn:TH; try discriminate.
    assert (SU2 : forall o, o = None -> subsequence (flat_map (fun o : option note => match o with Some m => [m] | None => [] end) (outcomes s ++ [o]))
      (map snd (filter (fun p => fst p <? length (outcomes s ++ [o])) (takes s)))).
    { intros o ->. rewrite returned_snoc, app_nil_r. eapply subsequence_trans; [|exact SU]. apply subsequence_filter. intros x X.
      apply Nat.ltb_lt in X. apply Nat.ltb_lt. rewrite app_length. cbn. lia. }
    assert (OU2 : forall j m, nth_error (outcomes s ++ [None]) j = Some (Some m) -> task_of s j = Took m).
    { intros j m K. destruct (lt_dec j (length (outcomes s))) as [L|L].
      - rewrite nth_error_app1 in K by exact L. auto.
      - rewrite nth_error_app2 in K by lia. destruct (j - length (outcomes s)) as [|d]; [discriminate|]. cbn in K. rewrite ?nth_error_nil in K. destruct d; discriminate. }
    destruct (future_of s (current s)) as [|m|] eqn:FC; unfold current in *; injection H as <-.
    + constructor; unfold calls; cbn; rewrite ?app_length; cbn; auto.
      * rewrite AR by discriminate. exact A.
      * intros j J. destruct (LA j) as [L1 L2]; [lia|]. split; [exact L1|]. rewrite upd_neq by lia. exact L2.
      * apply nodup_snoc; [exact ND|]. intros K. apply in_split in K. destruct K as (a & b & K). destruct (SP _ _ _ K) as (K1 & _). lia.
      * intros a j b K. apply split_snoc in K. destruct K as [(-> & <- & K)|(b' & -> & K)]; [discriminate|].
        destruct (ST _ _ _ K) as (E1 & E2 & E3). split; [exact E1|]. split; [lia|exact E3].
      * intros a k b K. apply split_snoc in K. destruct K as [(-> & <- & K)|(b' & -> & K)].
        -- injection K as <-. split; [lia|]. destruct (task_of s (length (outcomes s))) eqn:E; try (left; discriminate).
           right. apply BE; [lia|exact E].
        -- destruct (SP _ _ _ K) as (E1 & E2). split; [lia|exact E2].
      * intros k K. destruct (Nat.eq_dec k (length (outcomes s))) as [->|N]; [right; apply in_or_app; right; now left|].
        destruct (OV k) as [O|O]; [lia|now left|right; apply in_or_app; now left].
      * intros j x K. destruct (Nat.eq_dec j (length (outcomes s))) as [->|N]; [rewrite upd_eq in K; discriminate|rewrite upd_neq in K by exact N; auto].
      * specialize (SU2 None eq_refl). rewrite app_length in SU2. exact SU2.
      * intros k K. rewrite upd_neq by lia. apply LV. lia.
      * intros k K. apply CA in K. lia.
      * intros k B1 B2. apply in_or_app. left. apply BE; [lia|exact B2].
    + constructor; unfold calls; cbn; rewrite ?app_length; cbn; auto.
      * rewrite AR by discriminate. exact A.
      * intros j J. apply LA. lia.
      * intros a j b K. destruct (ST _ _ _ K) as (E1 & E2 & E3). split; [exact E1|]. split; [lia|exact E3].
      * intros a k b K. destruct (SP _ _ _ K) as (E1 & E2). split; [lia|exact E2].
      * intros k K. destruct (Nat.eq_dec k (length (outcomes s))) as [->|N]; [left; apply FU in FC; now rewrite FC|]. apply OV. lia.
      * specialize (SU2 None eq_refl). rewrite app_length in SU2. exact SU2.
      * intros k K. apply LV. lia.
      * intros k K. apply CA in K. lia.
      * intros k B1 B2. apply BE; [lia|exact B2].
    + exfalso. exact (LV _ (le_n _) FC).
  - (* Return *)
    destruct (thread s) as [|lim|] eqn:TH; try discriminate. destruct (future_of s (current s)) as [|m|] eqn:FC; try discriminate.
    injection H as <-. unfold current in *. pose proof (FU _ _ FC) as TC.
    constructor; unfold calls; cbn; rewrite ?app_length; cbn; auto.
    + rewrite AR by discriminate. exact A.
    + intros j J. apply LA. lia.
    + intros a j b K. destruct (ST _ _ _ K) as (E1 & E2 & E3). split; [exact E1|]. split; [lia|exact E3].
    + intros a k b K. destruct (SP _ _ _ K) as (E1 & E2). split; [lia|exact E2].
    + intros k K. destruct (Nat.eq_dec k (length (outcomes s))) as [->|N]; [left; now rewrite TC|]. apply OV. lia.
    + unfold returned. cbn. rewrite returned_snoc.
      destruct (sorted_last (takes s) (length (outcomes s)) m SO) as (t & E & L).
      * now apply T.
      * intros j x K. apply T in K. destruct (le_lt_dec j (length (outcomes s))) as [K1|K1]; [exact K1|].
        destruct (LA j) as [K2 _]; [lia|]. congruence.
      * rewrite E in *. rewrite filter_app, map_app in *. apply subsequence_app.
        -- rewrite (filter_all _ t); [|intros p P; apply Nat.ltb_lt; specialize (L p P); lia].
           rewrite (filter_all _ t) in SU; [|intros p P; apply Nat.ltb_lt; auto]. cbn [filter fst] in SU. rewrite Nat.ltb_irrefl in SU. cbn [map] in SU.
           now rewrite app_nil_r in SU.
        -- rewrite filter_all; [apply subsequence_refl|]. intros p [<-|[]]. apply Nat.ltb_lt. cbn. lia.
    + intros j x K. destruct (lt_dec j (length (outcomes s))) as [L|L].
      * rewrite nth_error_app1 in K by exact L. auto.
      * rewrite nth_error_app2 in K by lia. destruct (j - length (outcomes s)) as [|d] eqn:D.
        -- cbn in K. injection K as <-. replace j with (length (outcomes s)) by lia. exact TC.
        -- cbn in K. destruct d; discriminate.
    + intros k K. apply LV. lia.
    + intros k K. apply CA in K. lia.
    + intros k B1 B2. apply BE; [lia|exact B2].
Qed.

Lemma inv_run es s : history es s -> Inv es s.
Proof.
  unfold history. revert s. induction es as [|e es IH] using rev_ind; intros s H.
  - injection H as <-. constructor; unfold calls; cbn; try solve [constructor].
    + intros j m. split; [intros []|discriminate].
    + auto.
    + intros a j b E. destruct a; discriminate.
    + intros a j b E. destruct a; discriminate.
    + congruence.
    + intros k K. lia.
    + discriminate.
    + intros j m E. destruct j; discriminate.
    + discriminate.
    + discriminate.
    + intros k K. lia.
  - apply steps_snoc in H. destruct H as (s1 & H1 & H2). exact (inv_step _ _ _ _ (IH _ H1) H2).
Qed.

(** * Counting *)
Lemma sorted_nodup l : StronglySorted lt l -> NoDup l.
Proof.
  induction 1 as [|x l H1 IH H2]; constructor; [|exact IH]. intros K. rewrite Forall_forall in H2. specialize (H2 x K). lia.
Qed.

Definition good (l : list (option note)) (j : nat) : bool := match nth_error l j with Some (Some _) => true | _ => false end.

Lemma good_count (l : list (option note)) :
  length (filter (good l) (seq 0 (length l))) = length (flat_map (fun o => match o with Some m => [m] | None => [] end) l).
Proof.
  induction l as [|o l IH] using rev_ind; [reflexivity|]. rewrite app_length. cbn [length]. rewrite seq_app, filter_app, flat_map_app, !app_length.
  f_equal.
  - rewrite <- IH. f_equal. apply filter_ext_in. intros j J. apply in_seq in J. unfold good. now rewrite nth_error_app1 by lia.
  - cbn. unfold good. rewrite nth_error_app2, Nat.sub_diag by lia. cbn. destruct o; reflexivity.
Qed.

Lemma clean es s : history es s -> thread s = Idle -> cancelled_in_time s -> arrived es = returned s ++ queue s.
Proof.
  intros H I C. pose proof (inv_run _ _ H) as V. rewrite (i_arr _ _ V). f_equal. symmetry. apply subsequence_same.
  - eapply subsequence_trans; [|exact (i_sub _ _ V)]. apply subsequence_filter_all.
  - rewrite map_length. unfold returned. rewrite <- good_count, <- (map_length fst). apply NoDup_incl_length.
    + apply sorted_nodup. exact (i_sorted _ _ V).
    + intros j J. apply in_map_iff in J. destruct J as ([j' m] & <- & J). cbn. apply (i_take _ _ V) in J.
      assert (L : j' < length (outcomes s)).
      { destruct (le_lt_dec (length (outcomes s)) j') as [L|L]; [|exact L]. destruct (i_later _ _ V j') as [L1 _]; [|congruence].
        unfold calls. now rewrite I. }
      apply filter_In. split; [apply in_seq; lia|]. unfold good.
      destruct (nth_error (outcomes s) j') as [[x|]|] eqn:E; [reflexivity| |].
      * specialize (C j' E). congruence.
      * apply nth_error_None in E. lia.
Qed.

Lemma at_most_one es s : history es s -> thread s = Idle -> length (arrived es) <= length (queue s) + length (outcomes s).
Proof.
  intros H I. pose proof (inv_run _ _ H) as V. rewrite (i_arr _ _ V), app_length, map_length.
  assert (L : length (takes s) <= length (outcomes s)); [|lia].
  rewrite <- (map_length fst), <- (seq_length (length (outcomes s)) 0). apply NoDup_incl_length.
  - apply sorted_nodup. exact (i_sorted _ _ V).
  - intros j J. apply in_map_iff in J. destruct J as ([j' m] & <- & J). cbn. apply (i_take _ _ V) in J. apply in_seq.
    destruct (le_lt_dec (length (outcomes s)) j') as [L|L]; [|lia]. destruct (i_later _ _ V j') as [L1 _]; [|congruence].
    unfold calls. now rewrite I.
Qed.

Lemma in_order es s : history es s -> subsequence (returned s) (arrived es).
Proof.
  intros H. pose proof (inv_run _ _ H) as V. rewrite (i_arr _ _ V), <- (app_nil_r (returned s)).
  apply subsequence_app; [|apply subsequence_nil]. eapply subsequence_trans; [|exact (i_sub _ _ V)]. apply subsequence_filter_all.
Qed.

Lemma no_timeouts_run es s : history es s -> no_timeouts es -> thread s <> GivingUp /\ forall j, nth_error (outcomes s) j <> Some None.
Proof.
  unfold history. revert s. induction es as [|e es IH] using rev_ind; intros s H N.
  - injection H as <-. split; [discriminate|]. intros j. destruct j; discriminate.
  - apply steps_snoc in H. destruct H as (s1 & H1 & H2).
    assert (N1 : no_timeouts es) by (intros K; apply N; apply in_or_app; now left).
    assert (N2 : e <> TimeOut) by (intros ->; apply N; apply in_or_app; right; now left).
    destruct (IH s1 H1 N1) as [I1 I2].
    destruct e as [m|lim| |j|j| | |]; cbn [step] in H2;
      repeat match type of H2 with match ?x with _ => _ end = Some _ => destruct x eqn:?; try discriminate end;
      injection H2 as <-; cbn [thread outcomes]; try congruence; try (split; [first [exact I1|congruence|discriminate]|exact I2]).
    + split; [discriminate|]. intros j. destruct (lt_dec j (length (outcomes s1))) as [L|L].
      * rewrite nth_error_app1 by exact L. apply I2.
      * rewrite nth_error_app2 by lia. destruct (j - length (outcomes s1)) as [|d]; [discriminate|]. cbn. destruct d; discriminate.
Qed.

(** * A waiting call returns when there is a message *)
Lemma drain : forall r s, jobs s = r -> exists s1 es, forallb goes_on es = true /\ steps s es = Some s1 /\
  jobs s1 = [] /\ queue s1 = queue s /\ thread s1 = thread s /\ outcomes s1 = outcomes s.
Proof.
  induction r as [|[j|j] r IH]; intros s J.
  - exists s, []. auto 10.
  - destruct (IH {| queue := queue s; jobs := r; task_of := upd (task_of s) j Ready; future_of := future_of s;
                    thread := thread s; outcomes := outcomes s; takes := takes s |} eq_refl) as (s1 & es & E1 & E2 & E3).
    exists s1, (Loop :: es). split; [exact E1|]. split; [|exact E3]. cbn [steps step]. rewrite J. exact E2.
  - destruct (IH {| queue := queue s; jobs := r; task_of := match task_of s j with Ready => upd (task_of s) j TCancelled | _ => task_of s end;
                    future_of := future_of s; thread := thread s; outcomes := outcomes s; takes := takes s |} eq_refl) as (s1 & es & E1 & E2 & E3).
    exists s1, (Loop :: es). split; [exact E1|]. split; [|exact E3]. cbn [steps step]. rewrite J. exact E2.
Qed.

Lemma returns es s lim : history es s -> thread s = Waits lim -> queue s <> [] ->
  exists es' s' m, forallb goes_on es' = true /\ steps s es' = Some s' /\ thread s' = Idle /\ outcomes s' = outcomes s ++ [Some m].
Proof.
  intros H W Q. destruct (drain (jobs s) s eq_refl) as (s1 & es1 & G1 & S1 & J1 & Q1 & T1 & O1).
  assert (H1 : history (es ++ es1) s1) by (unfold history in *; now rewrite steps_app, H).
  pose proof (inv_run _ _ H1) as V. set (c := length (outcomes s1)).
  assert (C : calls s1 = S c) by (unfold calls; rewrite T1, W; reflexivity).
  (* the task has run *)
  assert (R : exists s2 es2 m, forallb goes_on es2 = true /\ steps s1 es2 = Some s2 /\ task_of s2 c = Took m /\
    future_of s2 = future_of s1 /\ thread s2 = thread s1 /\ outcomes s2 = outcomes s1).
  { destruct (task_of s1 c) as [| |m|] eqn:TC.
    - exfalso. assert (X : In (Start c) (jobs s1)) by (apply (i_began _ _ V); [lia|exact TC]). rewrite J1 in X. destruct X.
    - destruct (queue s1) as [|m q] eqn:Q2; [congruence|].
      exists {| queue := q; jobs := jobs s1; task_of := upd (task_of s1) c (Took m); future_of := future_of s1;
                thread := thread s1; outcomes := outcomes s1; takes := takes s1 ++ [(c, m)] |}, [Run c], m.
      split; [reflexivity|]. split; [cbn; now rewrite TC, Q2|]. split; [apply upd_eq|auto 10].
    - exists s1, [], m. auto 10.
    - exfalso. apply (i_canc _ _ V) in TC. unfold c in TC. lia. }
  destruct R as (s2 & es2 & m & G2 & S2 & TK2 & F2 & T2 & O2).
  assert (H2 : history ((es ++ es1) ++ es2) s2) by (unfold history in *; now rewrite steps_app, H1).
  pose proof (inv_run _ _ H2) as V2.
  assert (R : exists s3 es3, forallb goes_on es3 = true /\ steps s2 es3 = Some s3 /\ future_of s3 c = FResult m /\ thread s3 = thread s2 /\ outcomes s3 = outcomes s2).
  { destruct (future_of s2 c) as [|x|] eqn:FC.
    - exists {| queue := queue s2; jobs := jobs s2; task_of := task_of s2; future_of := upd (future_of s2) c (FResult m);
                thread := thread s2; outcomes := outcomes s2; takes := takes s2 |}, [Deliver c].
      split; [reflexivity|]. split; [cbn; now rewrite TK2, FC|]. split; [apply upd_eq|auto 10].
    - exists s2, []. pose proof (i_fut _ _ V2 _ _ FC) as X. assert (x = m) by congruence. subst. auto 10.
    - exfalso. apply (i_live _ _ V2 c); [rewrite O2; apply le_n|exact FC]. }
  destruct R as (s3 & es3 & G3 & S3 & F3 & T3 & O3).
  exists (es1 ++ es2 ++ es3 ++ [Return]),
    {| queue := queue s3; jobs := jobs s3; task_of := task_of s3; future_of := future_of s3; thread := Idle; outcomes := outcomes s3 ++ [Some m]; takes := takes s3 |}, m.
  rewrite !forallb_app, G1, G2, G3. split; [reflexivity|]. rewrite !steps_app, S1, steps_app, S2, steps_app, S3. split.
  - cbn [steps step]. unfold current. rewrite T3, T2, T1, W, O3, O2. fold c. now rewrite F3.
  - cbn. split; [reflexivity|]. congruence.
Qed.
