(* Proofs about PerfModel.v. *)

From Coq Require Import List Arith ZArith QArith Bool Lia Permutation Sorted.
From Verif Require Import Dict PerfModel PerfSpec.
Import ListNotations.
Local Open Scope nat_scope.

(* ---- networks ---- *)

Lemma links_cons a b l : links (a :: b :: l) = (a, b) :: links (b :: l).
Proof. reflexivity. Qed.

Lemma links_seq a n : forall x y, In (x, y) (links (map Client (seq a n))) <->
  exists i, a <= i /\ S i < a + n /\ x = Client i /\ y = Client (S i).
Proof.
  revert a. induction n as [|n IH]; intros a x y; cbn [seq map].
  - split; [intros []|]. intros [i [A [B _]]]. lia.
  - destruct n as [|n]; cbn [seq map].
    + split; [intros []|]. intros [i [A [B _]]]. lia.
    + rewrite links_cons. change (Client (S a) :: map Client (seq (S (S a)) n)) with (map Client (seq (S a) (S n))).
      cbn [In]. rewrite IH. split.
      * intros [E|[i [A [B [C D]]]]].
        -- injection E as <- <-. exists a. repeat split; lia.
        -- exists i. repeat split; try assumption; lia.
      * intros [i [A [B [-> ->]]]]. destruct (Nat.eq_dec i a) as [->|N]; [now left|].
        right. exists i. repeat split; lia.
Qed.

Lemma relay_edges n x y : In (x, y) (connections Relay n) <->
  (n = 0 /\ x = Source /\ y = Sink) \/
  (0 < n /\ ((x = Source /\ y = Client 0) \/
             (exists i, S i < n /\ x = Client i /\ y = Client (S i)) \/
             (x = Client (n - 1) /\ y = Sink))).
Proof.
  destruct n as [|n].
  - cbn. split.
    + intros [E|[]]. injection E as <- <-. now left.
    + intros [[_ [-> ->]]|[L _]]; [now left|lia].
  - assert (La : last (map Client (seq 0 (S n))) Source = Client n).
    { rewrite seq_S, map_app. cbn [map]. apply last_last. }
    unfold connections. rewrite La.
    change (map Client (seq 0 (S n))) with (Client 0 :: map Client (seq 1 n)) at 1. cbn iota.
    cbn [In]. rewrite in_app_iff, links_seq. cbn [In]. split.
    + intros [E|[[i [A [B [C D]]]]|[E|[]]]].
      * injection E as <- <-. right. split; [lia|]. now left.
      * right. split; [lia|]. right; left. exists i. repeat split; auto.
      * injection E as <- <-. right. split; [lia|]. right; right. split; [|reflexivity].
        f_equal. lia.
    + intros [[E _]|[_ [[-> ->]|[[i [A [-> ->]]]|[-> ->]]]]]; [discriminate|now left| |].
      * right; left. exists i. repeat split; lia.
      * right; right; left. do 2 f_equal. lia.
Qed.

Lemma relay_walk_from n k : forall l, k <= n -> walk (connections Relay n)
  ((match k with 0 => Source | S j => Client j end) :: l) ->
  last (Source :: l) Source = Sink ->
  l = map Client (seq k (n - k)) ++ [Sink].
Proof.
  remember (n - k) as m eqn:Em. revert k Em. induction m as [|m IH]; intros k Em l Le W La.
  - assert (k = n) by lia. subst k. cbn [seq map app].
    destruct l as [|b l]; [cbn in La; discriminate|]. cbn [walk] in W. destruct W as [E W].
    apply relay_edges in E.
    assert (b = Sink).
    { destruct E as [[-> [A ->]]|[L [[A ->]|[[i [B [A ->]]]|[A ->]]]]]; try reflexivity.
      - destruct n; [lia|discriminate].
      - destruct n; [lia|]. injection A as ->. lia. }
    subst b. destruct l as [|c l]; [reflexivity|]. cbn [walk] in W. destruct W as [F _].
    apply relay_edges in F. exfalso. destruct F as [[_ [A _]]|[_ [[A _]|[[i [_ [A _]]]|[A _]]]]]; discriminate.
  - destruct l as [|b l]; [cbn in La; discriminate|]. cbn [walk] in W. destruct W as [E W].
    apply relay_edges in E.
    assert (b = Client k).
    { destruct E as [[-> [A ->]]|[L [[A ->]|[[i [B [A ->]]]|[A ->]]]]]; [lia| | |].
      - destruct k; [reflexivity|discriminate].
      - destruct k; [discriminate|]. now injection A as ->.
      - destruct k; [discriminate|]. injection A as ->. lia. }
    subst b. cbn [seq map app]. f_equal. apply (IH (S k)); [lia|lia|exact W|].
    destruct l as [|c l]; [cbn in La; discriminate|]. exact La.
Qed.

Lemma relay_walk n l : walk (connections Relay n) (Source :: l) -> last (Source :: l) Source = Sink ->
  l = map Client (seq 0 n) ++ [Sink].
Proof.
  intros W La. pose proof (relay_walk_from n 0 l (Nat.le_0_l _) W La) as E.
  now rewrite Nat.sub_0_r in E.
Qed.

Lemma relay_walk_exists n : walk (connections Relay n) (Source :: map Client (seq 0 n) ++ [Sink]).
Proof.
  assert (G : forall m k, k + m = n ->
     walk (connections Relay n) ((match k with 0 => Source | S j => Client j end) :: map Client (seq k m) ++ [Sink])).
  { induction m as [|m IH]; intros k E.
    - cbn. split; [|exact Logic.I]. apply relay_edges. destruct k as [|j].
      + left. repeat split; lia.
      + right. split; [lia|]. right; right. split; [f_equal; lia|reflexivity].
    - cbn [seq map app]. cbn [walk]. split; [|apply (IH (S k)); lia]. apply relay_edges. right. split; [lia|].
      destruct k as [|j]; [now left|]. right; left. exists j. repeat split; lia. }
  apply (G n 0). lia.
Qed.

Lemma fanout_edges n x y : In (x, y) (connections Fanout n) <->
  x = Source /\ (y = Sink \/ exists i, i < n /\ y = Client i).
Proof.
  unfold connections. cbn [In]. rewrite in_map_iff. split.
  - intros [E|[c [E K]]]; [injection E as <- <-; auto|]. injection E as <- <-.
    apply in_map_iff in K as [i [<- K]]. apply in_seq in K. split; [reflexivity|]. right. exists i. split; [lia|reflexivity].
  - intros [-> [->|[i [L ->]]]]; [now left|]. right. exists (Client i). split; [reflexivity|].
    apply in_map, in_seq. lia.
Qed.

Lemma fanin_edges n x y : In (x, y) (connections Fanin n) <->
  y = Sink /\ (x = Source \/ exists i, i < n /\ x = Client i).
Proof.
  unfold connections. cbn [In]. rewrite in_map_iff. split.
  - intros [E|[c [E K]]]; [injection E as <- <-; auto|]. injection E as <- <-.
    apply in_map_iff in K as [i [<- K]]. apply in_seq in K. split; [reflexivity|]. right. exists i. split; [lia|reflexivity].
  - intros [-> [->|[i [L ->]]]]; [now left|]. right. exists (Client i). split; [reflexivity|].
    apply in_map, in_seq. lia.
Qed.

(* ---- source and sink ---- *)

Lemma source_from_spec late num : forall i, exists k, k <= num /\ source_from late num i = seq i k /\
  (forall j, i <= j < i + k -> late j = false) /\ (k = num \/ late (i + k) = true).
Proof.
  induction num as [|num IH]; intros i; cbn [source_from].
  - exists 0. split; [lia|]. split; [reflexivity|]. split; [lia|now left].
  - destruct (late i) eqn:L.
    + exists 0. rewrite Nat.add_0_r. split; [lia|]. split; [reflexivity|]. split; [lia|now right].
    + destruct (IH (S i)) as [k [A [B [C D]]]]. exists (S k). cbn [seq]. rewrite B.
      split; [lia|]. split; [reflexivity|]. split.
      * intros j Hj. destruct (Nat.eq_dec j i) as [->|N]; [exact L|]. apply C. lia.
      * destruct D as [D|D]; [left; lia|]. right. now rewrite <- plus_n_Sm in *.
Qed.

Lemma sink_spec want arriving : forall got, length got < want ->
  (length got + length arriving < want /\ sink want got arriving = (got ++ arriving, false)) \/
  (want <= length got + length arriving /\
   sink want got arriving = (got ++ firstn (want - length got) arriving, true)).
Proof.
  induction arriving as [|x r IH]; intros got L; cbn [sink].
  - left. rewrite app_nil_r. cbn. split; [lia|reflexivity].
  - rewrite app_length. cbn [length]. destruct (Nat.eqb_spec (length got + 1) want) as [E|E].
    + right. split; [lia|]. replace (want - length got) with 1 by lia. reflexivity.
    + destruct (IH (got ++ [x])) as [[A B]|[A B]].
      * rewrite app_length. cbn. lia.
      * left. rewrite app_length in A. cbn in A. split; [lia|]. rewrite B, <- app_assoc. reflexivity.
      * right. rewrite app_length in A, B. cbn in A, B. split; [lia|]. rewrite B, <- app_assoc.
        replace (want - length got) with (S (want - (length got + 1))) by lia. reflexivity.
Qed.

Lemma sink_zero arriving : forall got, sink 0 got arriving = (got ++ arriving, false).
Proof.
  induction arriving as [|x r IH]; intros got; cbn [sink]; [now rewrite app_nil_r|].
  rewrite app_length. cbn [length]. rewrite Nat.add_1_r. cbn [Nat.eqb]. now rewrite IH, <- app_assoc.
Qed.

(* ---- sorting ---- *)

Section Sort.
Context {A : Type} (le : A -> A -> bool).
Hypothesis total_le : forall x y, le x y = true \/ le y x = true.
Hypothesis trans_le : forall x y z, le x y = true -> le y z = true -> le x z = true.

Definition leP (x y : A) : Prop := le x y = true.

Lemma insert_perm x l : Permutation (x :: l) (insert le x l).
Proof.
  induction l as [|y l IH]; cbn; [apply Permutation_refl|]. destruct (le x y); [apply Permutation_refl|].
  etransitivity; [apply perm_swap|]. now apply perm_skip.
Qed.

Lemma sort_perm l : Permutation l (sort le l).
Proof.
  induction l as [|x l IH]; cbn; [constructor|]. etransitivity; [apply perm_skip, IH|apply insert_perm].
Qed.

Lemma insert_sorted x l : StronglySorted leP l -> StronglySorted leP (insert le x l).
Proof.
  induction l as [|y l IH]; intros So; cbn; [repeat constructor|].
  inversion So as [|? ? So' F]; subst. destruct (le x y) eqn:E.
  - constructor; [exact So|]. constructor; [exact E|]. eapply Forall_impl; [|exact F].
    intros z. unfold leP. now apply trans_le.
  - constructor; [now apply IH|]. apply Forall_forall. intros z K.
    apply (Permutation_in _ (Permutation_sym (insert_perm x l))) in K. destruct K as [<-|K].
    + destruct (total_le x y) as [T|T]; [congruence|exact T].
    + rewrite Forall_forall in F. now apply F.
Qed.

Lemma sort_sorted l : StronglySorted leP (sort le l).
Proof. induction l as [|x l IH]; cbn; [constructor|now apply insert_sorted]. Qed.

Lemma sort_length l : length (sort le l) = length l.
Proof. symmetry. apply Permutation_length, sort_perm. Qed.

Lemma sorted_nth l : StronglySorted leP l -> forall i j d, i <= j -> j < length l ->
  leP (nth i l d) (nth j l d) \/ i = j.
Proof.
  induction 1 as [|x l So IH F]; intros i j d L B; cbn in B; [lia|].
  destruct i as [|i], j as [|j]; try lia.
  - left. cbn. rewrite Forall_forall in F. apply F, nth_In. lia.
  - destruct (IH i j d) as [K|K]; [lia|lia|left; exact K|right; lia].
Qed.

Lemma le_refl' x : le x x = true.
Proof. destruct (total_le x x); assumption. Qed.

(** The first [k] values of the sorted list and those from [k'] on, around [v]. *)
Lemma halves_sorted l v i j d : i < length l -> j < length l -> j <= S i ->
  leP (nth i (sort le l) d) v -> leP v (nth j (sort le l) d) ->
  length l <= 2 * S i -> length l <= 2 * (length l - j) ->
  halves leP v l.
Proof.
  intros Hi Hj Hij Li Lj Ci Cj. pose proof (sort_sorted l) as So. pose proof (sort_length l) as Le.
  exists (firstn (S i) (sort le l)), (skipn j (sort le l)). split; [|split; [|split; [|split; [|split]]]].
  - intros x K. apply (In_nth _ _ d) in K as [k [Hk <-]].
    rewrite firstn_length, Le in Hk. rewrite <- (firstn_skipn (S i) (sort le l)) in Li.
    assert (E : nth k (firstn (S i) (sort le l)) d = nth k (sort le l) d).
    { rewrite <- (firstn_skipn (S i) (sort le l)) at 2. rewrite app_nth1; [reflexivity|]. rewrite firstn_length, Le. lia. }
    rewrite firstn_skipn in Li. rewrite E. destruct (sorted_nth _ So k i d) as [K| ->]; [lia|lia| |exact Li].
    eapply trans_le; [exact K|exact Li].
  - intros x K. apply (In_nth _ _ d) in K as [k [Hk <-]]. rewrite skipn_length, Le in Hk.
    assert (E : nth k (skipn j (sort le l)) d = nth (j + k) (sort le l) d).
    { rewrite <- (firstn_skipn j (sort le l)) at 2. rewrite app_nth2; rewrite firstn_length, Le; [|lia].
      f_equal. lia. }
    rewrite E. destruct (sorted_nth _ So j (j + k) d) as [K|K]; [lia|rewrite Le; lia| |].
    + eapply trans_le; [exact Lj|exact K].
    + rewrite <- K. exact Lj.
  - exists (skipn (S i) (sort le l)). rewrite firstn_skipn. apply sort_perm.
  - exists (firstn j (sort le l)). etransitivity; [apply sort_perm|].
    rewrite <- (firstn_skipn j (sort le l)) at 1. apply Permutation_app_comm.
  - rewrite firstn_length, Le. lia.
  - rewrite skipn_length, Le. lia.
Qed.

Hypothesis anti_le : forall x y, le x y = true -> le y x = true -> x = y.

Lemma insert_comm a b l : insert le a (insert le b l) = insert le b (insert le a l).
Proof.
  induction l as [|y l IH]; cbn.
  - destruct (le a b) eqn:E, (le b a) eqn:F; try reflexivity.
    + now rewrite (anti_le _ _ E F).
    + destruct (total_le a b); congruence.
  - destruct (le b y) eqn:By, (le a y) eqn:Ay; cbn; rewrite ?By, ?Ay.
    + destruct (le a b) eqn:E, (le b a) eqn:F; rewrite ?By, ?Ay; try reflexivity.
      * now rewrite (anti_le _ _ E F).
      * destruct (total_le a b); congruence.
    + destruct (le a b) eqn:E; [|reflexivity]. rewrite (trans_le _ _ _ E By) in Ay. discriminate.
    + destruct (le b a) eqn:E; [|reflexivity]. rewrite (trans_le _ _ _ E Ay) in By. discriminate.
    + now rewrite IH.
Qed.

Lemma sort_order l l' : Permutation l l' -> sort le l = sort le l'.
Proof.
  unfold sort.
  induction 1 as [|x l l' P IH|x y l|l l' l'' P1 IH1 P2 IH2]; cbn; [reflexivity|now rewrite IH|apply insert_comm|congruence].
Qed.
End Sort.

Lemma ztot x y : Z.leb x y = true \/ Z.leb y x = true.
Proof. rewrite !Z.leb_le. lia. Qed.
Lemma ztr x y z : Z.leb x y = true -> Z.leb y z = true -> Z.leb x z = true.
Proof. rewrite !Z.leb_le. lia. Qed.
Lemma zanti x y : Z.leb x y = true -> Z.leb y x = true -> x = y.
Proof. rewrite !Z.leb_le. lia. Qed.
Lemma qtot x y : Qle_bool x y = true \/ Qle_bool y x = true.
Proof. rewrite !Qle_bool_iff. destruct (Qlt_le_dec y x) as [L|L]; [right; now apply Qlt_le_weak|now left]. Qed.
Lemma qtr x y z : Qle_bool x y = true -> Qle_bool y z = true -> Qle_bool x z = true.
Proof. rewrite !Qle_bool_iff. apply Qle_trans. Qed.

Lemma halves_impl {A} (R S : A -> A -> Prop) v l : (forall x y, R x y -> S x y) -> halves R v l -> halves S v l.
Proof. intros H [b [a [P [Q K]]]]. exists b, a. split; [auto|]. split; [auto|exact K]. Qed.

Lemma even_half n : Nat.even n = true -> n = 2 * (n / 2).
Proof. intros E. apply Nat.even_spec in E as [k ->]. rewrite Nat.mul_comm at 2. now rewrite Nat.div_mul by lia. Qed.
Lemma odd_half n : Nat.even n = false -> n = 2 * (n / 2) + 1.
Proof.
  intros E. assert (O : Nat.odd n = true) by (unfold Nat.odd; now rewrite E).
  apply Nat.odd_spec in O as [k ->]. rewrite Nat.mul_comm at 2. rewrite Nat.div_add_l by lia.
  change (1 / 2) with 0. lia.
Qed.

Lemma median_halves l : l <> [] -> halves Qle (median l) l.
Proof.
  intros N. assert (L : 0 < length l) by (destruct l; [contradiction|cbn; lia]).
  apply (halves_impl (leP Qle_bool)); [intros x y; apply Qle_bool_iff|].
  unfold median. destruct (Nat.even (length l)) eqn:E.
  - pose proof (even_half _ E) as H. set (h := length l / 2) in *.
    assert (M : (nth (h - 1) (sort Qle_bool l) 0 <= nth h (sort Qle_bool l) 0)%Q).
    { destruct (sorted_nth Qle_bool _ (sort_sorted Qle_bool qtot qtr l) (h - 1) h 0%Q) as [K|K];
        [lia|rewrite sort_length; lia| |lia]. now apply Qle_bool_iff in K. }
    apply (halves_sorted Qle_bool qtot qtr l _ (h - 1) h 0%Q); try lia.
    + apply Qle_bool_iff. apply Qle_shift_div_l; [reflexivity|].
      setoid_replace (nth (h - 1) (sort Qle_bool l) 0 * 2)%Q
        with (nth (h - 1) (sort Qle_bool l) 0 + nth (h - 1) (sort Qle_bool l) 0)%Q by ring.
      now apply Qplus_le_r.
    + apply Qle_bool_iff. apply Qle_shift_div_r; [reflexivity|].
      setoid_replace (nth h (sort Qle_bool l) 0 * 2)%Q
        with (nth h (sort Qle_bool l) 0 + nth h (sort Qle_bool l) 0)%Q by ring.
      now apply Qplus_le_l.
  - pose proof (odd_half _ E) as H. set (h := length l / 2) in *.
    apply (halves_sorted Qle_bool qtot qtr l _ h h 0%Q); try lia.
    + apply (le_refl' Qle_bool qtot).
    + apply (le_refl' Qle_bool qtot).
Qed.

Lemma zmedian_halves l d : l <> [] -> halves Z.le (nth (length l / 2) (sort Z.leb l) d) l /\
  In (nth (length l / 2) (sort Z.leb l) d) l.
Proof.
  intros N. assert (L : 0 < length l) by (destruct l; [contradiction|cbn; lia]).
  assert (H : 2 * (length l / 2) <= length l < 2 * (length l / 2) + 2).
  { pose proof (Nat.div_mod (length l) 2) as D. pose proof (Nat.mod_upper_bound (length l) 2). lia. }
  split.
  - apply (halves_impl (leP Z.leb)); [intros x y; apply Z.leb_le|].
    apply (halves_sorted Z.leb ztot ztr l _ (length l / 2) (length l / 2) d); try lia;
      apply (le_refl' Z.leb ztot).
  - apply (Permutation_in _ (Permutation_sym (sort_perm Z.leb l))), nth_In. rewrite sort_length. lia.
Qed.

Lemma sorted_impl {A} (R S : A -> A -> Prop) l : (forall x y, R x y -> S x y) -> StronglySorted R l -> StronglySorted S l.
Proof.
  intros H. induction 1 as [|x l So IH F]; constructor; [exact IH|]. eapply Forall_impl; [|exact F]. auto.
Qed.

Lemma median_is l : l <> [] -> is_median (median l) l.
Proof.
  intros N. split; [exact N|]. assert (L : 0 < length l) by (destruct l; [contradiction|cbn; lia]).
  exists (sort Qle_bool l). split; [apply sort_perm|]. split.
  { eapply sorted_impl; [|apply (sort_sorted _ qtot qtr)]. intros x y. apply Qle_bool_iff. }
  unfold median. destruct (Nat.even (length l)) eqn:E.
  - pose proof (even_half _ E) as H. replace ((length l - 1) / 2) with (length l / 2 - 1); [reflexivity|].
    set (h := length l / 2) in *. rewrite H. replace (2 * h - 1) with (1 + (h - 1) * 2) by lia.
    rewrite Nat.div_add by lia. reflexivity.
  - pose proof (odd_half _ E) as H. replace ((length l - 1) / 2) with (length l / 2); [field|].
    set (h := length l / 2) in *. rewrite H. replace (2 * h + 1 - 1) with (h * 2) by lia.
    now rewrite Nat.div_mul by lia.
Qed.

Lemma fold_qplus l : forall a, (fold_left Qplus l a == a + qtotal l)%Q.
Proof.
  induction l as [|x l IH]; intros a; cbn; [ring|]. rewrite IH. unfold qtotal. ring.
Qed.

Lemma inject_pos n : 0 < n -> ~ (inject_Z (Z.of_nat n) == 0)%Q.
Proof. intros L. unfold Qeq. cbn. lia. Qed.

Lemma mean_is l : l <> [] -> is_mean (mean l) l.
Proof.
  intros N. split; [exact N|]. unfold mean. rewrite fold_qplus. field. apply inject_pos.
  destruct l; [contradiction|cbn; lia].
Qed.

(* ---- figures ---- *)

Lemma fold_min l : forall a, (fold_left Z.min l a = a \/ In (fold_left Z.min l a) l) /\
  (fold_left Z.min l a <= a)%Z /\ forall z, In z l -> (fold_left Z.min l a <= z)%Z.
Proof.
  induction l as [|x l IH]; intros a; cbn; [split; [now left|]; split; [lia|intros z []]|].
  destruct (IH (Z.min a x)) as [A [B C]]. split; [|split].
  - destruct A as [A|A]; [|auto]. destruct (Z.min_dec a x) as [E|E]; rewrite E in A; [left|right; left]; congruence.
  - lia.
  - intros z [<-|K]; [lia|now apply C].
Qed.
Lemma fold_max l : forall a, (fold_left Z.max l a = a \/ In (fold_left Z.max l a) l) /\
  (a <= fold_left Z.max l a)%Z /\ forall z, In z l -> (z <= fold_left Z.max l a)%Z.
Proof.
  induction l as [|x l IH]; intros a; cbn; [split; [now left|]; split; [lia|intros z []]|].
  destruct (IH (Z.max a x)) as [A [B C]]. split; [|split].
  - destruct A as [A|A]; [|auto]. destruct (Z.max_dec a x) as [E|E]; rewrite E in A; [left|right; left]; congruence.
  - lia.
  - intros z [<-|K]; [lia|now apply C].
Qed.

Lemma zmin_some l m : zmin l = Some m <-> In m l /\ forall z, In z l -> (m <= z)%Z.
Proof.
  destruct l as [|a l]; cbn [zmin]; [split; [discriminate|intros [[] _]]|].
  destruct (fold_min l a) as [A [B C]]. split.
  - intros E. injection E as <-. split; [cbn; destruct A; auto|]. intros z [<-|K]; [exact B|now apply C].
  - intros [K M]. f_equal. apply Z.le_antisymm.
    + destruct K as [<-|K]; [exact B|now apply C].
    + apply M. cbn. destruct A; auto.
Qed.
Lemma zmax_some l m : zmax l = Some m <-> In m l /\ forall z, In z l -> (z <= m)%Z.
Proof.
  destruct l as [|a l]; cbn [zmax]; [split; [discriminate|intros [[] _]]|].
  destruct (fold_max l a) as [A [B C]]. split.
  - intros E. injection E as <-. split; [cbn; destruct A; auto|]. intros z [<-|K]; [exact B|now apply C].
  - intros [K M]. f_equal. apply Z.le_antisymm.
    + apply M. cbn. destruct A; auto.
    + destruct K as [<-|K]; [exact B|now apply C].
Qed.

Lemma zmin_none l : zmin l = None <-> l = [].
Proof. destruct l; cbn; split; congruence. Qed.
Lemma zmax_none l : zmax l = None <-> l = [].
Proof. destruct l; cbn; split; congruence. Qed.

Lemma zmin_perm l l' : Permutation l l' -> zmin l = zmin l'.
Proof.
  intros P. destruct (zmin l) as [m|] eqn:E.
  - symmetry. apply zmin_some. apply zmin_some in E as [A B]. split.
    + now apply (Permutation_in _ P).
    + intros z K. apply B. now apply (Permutation_in _ (Permutation_sym P)).
  - symmetry. apply zmin_none. apply zmin_none in E as ->. now apply Permutation_nil.
Qed.
Lemma zmax_perm l l' : Permutation l l' -> zmax l = zmax l'.
Proof.
  intros P. destruct (zmax l) as [m|] eqn:E.
  - symmetry. apply zmax_some. apply zmax_some in E as [A B]. split.
    + now apply (Permutation_in _ P).
    + intros z K. apply B. now apply (Permutation_in _ (Permutation_sym P)).
  - symmetry. apply zmax_none. apply zmax_none in E as ->. now apply Permutation_nil.
Qed.

Lemma fold_zplus l : forall a, fold_left Z.add l a = (a + ztotal l)%Z.
Proof. induction l as [|x l IH]; intros a; cbn; [lia|]. rewrite IH. unfold ztotal. lia. Qed.
Lemma total_is l : total l = ztotal l.
Proof. unfold total. rewrite fold_zplus. reflexivity. Qed.
Lemma ztotal_perm l l' : Permutation l l' -> ztotal l = ztotal l'.
Proof. unfold ztotal. induction 1; cbn; lia. Qed.

Lemma zsort_order l l' : Permutation l l' -> sort Z.leb l = sort Z.leb l'.
Proof. apply sort_order; [apply ztot|apply ztr|apply zanti]. Qed.

Lemma metrics_order size xs ys : Permutation xs ys -> calculate_metrics size xs = calculate_metrics size ys.
Proof.
  intros P. unfold calculate_metrics.
  rewrite (zmin_perm _ _ (Permutation_map sent P)), (zmax_perm _ _ (Permutation_map sent P)).
  rewrite (zsort_order _ _ (Permutation_map recv P)), (Permutation_length P), !total_is.
  rewrite (ztotal_perm _ _ (Permutation_map (fun x => (recv x - sent x)%Z) P)).
  rewrite (zsort_order _ _ (Permutation_map (fun x => (recv x - sent x)%Z) P)). reflexivity.
Qed.
Lemma dropped_order xs ys : Permutation xs ys -> dropped xs = dropped ys.
Proof.
  intros P. unfold dropped. now rewrite (zsort_order _ _ (Permutation_map (fun x => Z.of_nat (counter x)) P)).
Qed.

Lemma spans_minmax xs lo hi : spans xs lo hi <-> zmin (map sent xs) = Some lo /\ zmax (map sent xs) = Some hi.
Proof.
  rewrite zmin_some, zmax_some. unfold spans. split.
  - intros [A [B C]]. repeat split; auto; intros z K; now apply C.
  - intros [[A B] [C D]]. repeat split; auto.
Qed.

Lemma metrics_none size xs : calculate_metrics size xs = None <->
  (forall x y, In x xs -> In y xs -> sent x = sent y).
Proof.
  unfold calculate_metrics.
  destruct (zmin (map sent xs)) as [lo|] eqn:A.
  - destruct (zmax (map sent xs)) as [hi|] eqn:B.
    + pose proof (proj2 (spans_minmax xs lo hi) (conj A B)) as [I1 [I2 R]].
      destruct (Z.eqb_spec (hi - lo) 0) as [E|E].
      * split; [intros _|reflexivity]. intros x y X Y.
        pose proof (R _ (in_map sent _ _ X)). pose proof (R _ (in_map sent _ _ Y)). lia.
      * split; [discriminate|]. intros H. exfalso. apply E.
        apply in_map_iff in I1 as [x [<- X]]. apply in_map_iff in I2 as [y [<- Y]].
        rewrite (H x y X Y). lia.
    + apply zmax_none in B. rewrite B in A. discriminate.
  - apply zmin_none in A. destruct xs; [|discriminate]. split; [intros _ x y []|reflexivity].
Qed.

Lemma diffs_gaps l : diffs l = gaps l.
Proof.
  induction l as [|a l IH]; [reflexivity|]. destruct l as [|b l]; [reflexivity|].
  change (diffs (a :: b :: l)) with ((b - a)%Z :: diffs (b :: l)). rewrite IH. reflexivity.
Qed.

Lemma sort_sorted_id l : StronglySorted Z.le l -> sort Z.leb l = l.
Proof.
  induction 1 as [|x l So IH F]; [reflexivity|]. cbn. change (fold_right (insert Z.leb) [] l) with (sort Z.leb l).
  rewrite IH. destruct l as [|y l]; [reflexivity|]. cbn. inversion F as [|? ? L _]; subst.
  apply Z.leb_le in L. now rewrite L.
Qed.

Lemma sort_unique ts l : Permutation ts l -> StronglySorted Z.le ts -> sort Z.leb l = ts.
Proof. intros P So. rewrite <- (zsort_order _ _ P). now apply sort_sorted_id. Qed.

Lemma gaps_nonneg l : StronglySorted Z.le l -> forall z, In z (gaps l) -> (0 <= z)%Z.
Proof.
  rewrite <- (diffs_gaps l). induction 1 as [|x l So IH F]; intros z K; [destruct K|].
  destruct l as [|y l]; [destruct K|]. inversion F; subst. destruct K as [<-|K]; [lia|now apply IH].
Qed.

Lemma inj_div a b : ~ (b = 0)%Z -> (inject_Z a / inject_Z b * inject_Z b == inject_Z a)%Q.
Proof. intros N. field. unfold Qeq. cbn. lia. Qed.

Lemma metrics_some size xs m : calculate_metrics size xs = Some m ->
  exists lo hi, spans xs lo hi /\ (lo < hi)%Z /\
  let n := length xs in
  let lat := map (fun x => (recv x - sent x)%Z) xs in
  num_msgs m = n /\
  (rate_mean m * inject_Z (hi - lo) == inject_Z (Z.of_nat n))%Q /\
  (data_rate m == rate_mean m * inject_Z size)%Q /\
  lat_total m = Z.abs (ztotal lat) /\
  (lat_mean m * inject_Z (Z.of_nat n) == inject_Z (lat_total m))%Q /\
  In (lat_median m) lat /\ halves Z.le (lat_median m) lat /\
  forall ts, Permutation ts (map recv xs) -> StronglySorted Z.le ts ->
    let d := filter (fun z => negb (z =? 0)%Z) (gaps ts) in
    match rate_median m with
    | None => d = []
    | Some r => exists v, is_median v (map inject_Z d) /\ halves Qle v (map inject_Z d) /\ (r * v == 1)%Q /\ (0 < r)%Q
    end.
Proof.
  unfold calculate_metrics.
  destruct (zmin (map sent xs)) as [lo|] eqn:A; [|discriminate].
  destruct (zmax (map sent xs)) as [hi|] eqn:B; [|discriminate].
  destruct (Z.eqb_spec (hi - lo) 0) as [E|E]; [discriminate|]. intros H. injection H as <-. cbn [num_msgs rate_mean rate_median lat_mean lat_median lat_total data_rate].
  pose proof (proj2 (spans_minmax xs lo hi) (conj A B)) as Sp. exists lo, hi. split; [exact Sp|].
  assert (N : xs <> []) by (destruct xs; [discriminate|congruence]).
  split. { destruct Sp as [I1 [_ R]]. specialize (R _ I1). lia. }
  assert (Ln : length xs <> 0) by (destruct xs; [congruence|discriminate]).
  split; [reflexivity|]. split; [apply inj_div; exact E|]. split.
  { rewrite inject_Z_mult. field. unfold Qeq; cbn; lia. }
  split; [now rewrite total_is|]. split; [apply inj_div; lia|].
  assert (Nl : map (fun x => (recv x - sent x)%Z) xs <> []) by (destruct xs; [congruence|discriminate]).
  destruct (zmedian_halves _ 0%Z Nl) as [Hv Hi]. rewrite map_length in Hv, Hi.
  split; [exact Hi|]. split; [exact Hv|].
  intros ts P So. rewrite (sort_unique _ _ P So), diffs_gaps.
  set (d := filter (fun z => negb (z =? 0)%Z) (gaps ts)).
  assert (Pos : forall z, In z d -> (0 < z)%Z).
  { intros z K. apply filter_In in K as [K Z0]. apply gaps_nonneg in K; [|exact So].
    apply negb_true_iff, Z.eqb_neq in Z0. lia. }
  clearbody d. destruct d as [|z d]; [reflexivity|].
  assert (Nd : map inject_Z (z :: d) <> []) by discriminate.
  exists (median (map inject_Z (z :: d))). split; [now apply median_is|].
  pose proof (median_halves _ Nd) as H. split; [exact H|].
  assert (G : (0 < median (map inject_Z (z :: d)))%Q).
  { destruct H as [be [ab [H1 [_ [[re P1] [_ [L1 _]]]]]]].
    destruct be as [|b be]; [cbn in L1; lia|]. apply Qlt_le_trans with b; [|apply H1; now left].
    assert (K : In b (map inject_Z (z :: d))).
    { apply (Permutation_in _ (Permutation_sym P1)). now left. }
    apply in_map_iff in K as [y [<- K]]. apply Pos in K. unfold Qlt. cbn. lia. }
  split.
  - rewrite Qmult_comm. apply Qmult_inv_r. intros C. rewrite C in G. now apply Qlt_irrefl in G.
  - now apply Qinv_lt_0_compat.
Qed.

(* ---- dropped ---- *)

Lemma insert_map f x l : (forall a b : nat, Z.leb (f a) (f b) = Nat.leb a b) ->
  insert Z.leb (f x) (map f l) = map f (insert Nat.leb x l).
Proof.
  intros H. induction l as [|y l IH]; [reflexivity|]. cbn. rewrite H. destruct (x <=? y); cbn; [reflexivity|now rewrite IH].
Qed.
Lemma sort_map f l : (forall a b : nat, Z.leb (f a) (f b) = Nat.leb a b) ->
  sort Z.leb (map f l) = map f (sort Nat.leb l).
Proof.
  intros H. unfold sort. induction l as [|x l IH]; [reflexivity|]. cbn. rewrite IH. now apply insert_map.
Qed.

Lemma missing_ext lo hi cs cs' : (forall k, In k cs <-> In k cs') -> missing lo hi cs = missing lo hi cs'.
Proof.
  intros H. unfold missing. apply filter_ext. intros k. f_equal.
  destruct (existsb (Nat.eqb k) cs) eqn:A, (existsb (Nat.eqb k) cs') eqn:B; try reflexivity; exfalso.
  - apply existsb_exists in A as [y [Y E]]. apply Nat.eqb_eq in E. subst y. apply H in Y.
    assert (C : existsb (Nat.eqb k) cs' = true) by (apply existsb_exists; exists k; split; [exact Y|apply Nat.eqb_refl]). congruence.
  - apply existsb_exists in B as [y [Y E]]. apply Nat.eqb_eq in E. subst y. apply H in Y.
    assert (C : existsb (Nat.eqb k) cs = true) by (apply existsb_exists; exists k; split; [exact Y|apply Nat.eqb_refl]). congruence.
Qed.

Lemma filter_all {A} (f : A -> bool) l : (forall x, In x l -> f x = true) -> filter f l = l.
Proof. induction l as [|x l IH]; intros H; [reflexivity|]. cbn. rewrite (H x) by now left. f_equal. apply IH. intros y Y. apply H. now right. Qed.

Lemma last_indep {A} (l : list A) a b x : last (x :: l) a = last (x :: l) b.
Proof. revert x. induction l as [|c l IH]; intros x; [reflexivity|]. exact (IH c). Qed.

Lemma sorted_last l : forall a, StronglySorted le (a :: l) -> forall x, In x (a :: l) -> a <= x <= last (a :: l) a.
Proof.
  induction l as [|b l IH]; intros a So x K.
  - destruct K as [<-|[]]. cbn. lia.
  - inversion So as [|? ? So' F]; subst. change (last (a :: b :: l) a) with (last (b :: l) a).
    rewrite (last_indep l a b b). inversion F; subst. destruct K as [<-|K].
    + pose proof (IH b So' b (or_introl eq_refl)). lia.
    + pose proof (IH b So' x K). lia.
Qed.

Lemma dropped_sorted l : forall a, StronglySorted le (a :: l) ->
  ztotal (map (fun z => Z.max (z - 1) 0) (diffs (map Z.of_nat (a :: l)))) =
  Z.of_nat (length (missing a (last (a :: l) a) (a :: l))).
Proof.
  induction l as [|b l IH]; intros a So.
  - cbn [last]. unfold missing. replace (a + 1 - a) with 1 by lia. cbn. now rewrite Nat.eqb_refl.
  - inversion So as [|? ? So' F]; subst. inversion F as [|? ? L F']; subst.
    change (diffs (map Z.of_nat (a :: b :: l))) with ((Z.of_nat b - Z.of_nat a)%Z :: diffs (map Z.of_nat (b :: l))).
    cbn [map]. unfold ztotal. cbn [fold_right].
    match goal with |- (_ + fold_right Z.add 0%Z ?t)%Z = _ => change (fold_right Z.add 0%Z t) with (ztotal t) end.
    change (Z.of_nat b :: map Z.of_nat l) with (map Z.of_nat (b :: l)). rewrite (IH b So').
    change (last (a :: b :: l) a) with (last (b :: l) a). rewrite (last_indep l a b b).
    pose proof (proj2 (sorted_last l b So' b (or_introl eq_refl))) as Lh.
    set (h := last (b :: l) b) in *.
    destruct (Nat.eq_dec a b) as [->|N].
    + rewrite (missing_ext b h (b :: b :: l) (b :: l)); [lia|]. intros k. cbn. tauto.
    + assert (Ms : missing a h (a :: b :: l) = seq (S a) (b - a - 1) ++ missing b h (b :: l)).
      { unfold missing. replace (h + 1 - a) with (1 + ((b - a - 1) + (h + 1 - b))) by lia.
        rewrite seq_app. cbn [seq app]. rewrite Nat.add_1_r. cbn [filter existsb]. rewrite Nat.eqb_refl. cbn [orb negb].
        rewrite seq_app, filter_app. f_equal.
        - apply filter_all. intros x X. apply in_seq in X. apply negb_true_iff.
          destruct (existsb (Nat.eqb x) (a :: b :: l)) eqn:C; [|exact C]. exfalso.
          apply existsb_exists in C as [y [Y E]]. apply Nat.eqb_eq in E. subst y.
          destruct Y as [Y|Y]; [lia|]. pose proof (sorted_last l b So' x Y). lia.
        - replace (S a + (b - a - 1)) with b by lia. apply filter_ext_in. intros x X. apply in_seq in X.
          cbn [existsb]. replace (x =? a) with false; [reflexivity|]. symmetry. apply Nat.eqb_neq. lia. }
      rewrite Ms, app_length, seq_length. lia.
Qed.

Lemma dropped_spec xs lo hi : In lo (map counter xs) -> In hi (map counter xs) ->
  (forall k, In k (map counter xs) -> lo <= k <= hi) ->
  dropped xs = Z.of_nat (length (missing lo hi (map counter xs))).
Proof.
  intros A B R. unfold dropped. rewrite <- (map_map counter Z.of_nat), total_is.
  rewrite sort_map; [|intros a b; destruct (Nat.leb_spec a b), (Z.leb_spec (Z.of_nat a) (Z.of_nat b)); lia || reflexivity].
  set (cs := map counter xs) in *. clearbody cs. clear xs.
  pose proof (sort_perm Nat.leb cs) as P.
  assert (So : StronglySorted le (sort Nat.leb cs)).
  { eapply sorted_impl; [|apply (sort_sorted Nat.leb)].
    - intros x y. apply Nat.leb_le.
    - intros x y. rewrite !Nat.leb_le. lia.
    - intros x y z. rewrite !Nat.leb_le. lia. }
  destruct (sort Nat.leb cs) as [|a l] eqn:Es.
  - apply Permutation_sym, Permutation_nil in P. subst cs. destruct A.
  - rewrite (dropped_sorted l a So).
    assert (Ea : a = lo).
    { pose proof (R a (Permutation_in _ (Permutation_sym P) (or_introl eq_refl))).
      pose proof (sorted_last l a So lo (Permutation_in _ P A)). lia. }
    assert (Eh : last (a :: l) a = hi).
    { pose proof (sorted_last l a So hi (Permutation_in _ P B)).
      assert (K : In (last (a :: l) a) (a :: l)).
      { destruct (exists_last (l := a :: l)) as [l' [z E]]; [discriminate|]. rewrite E, last_last. apply in_or_app. right. now left. }
      pose proof (R _ (Permutation_in _ (Permutation_sym P) K)). lia. }
    rewrite Eh, Ea. f_equal. f_equal. apply missing_ext. intros k. rewrite <- Ea. split; intros K.
    + now apply (Permutation_in _ (Permutation_sym P)).
    + now apply (Permutation_in _ P).
Qed.

(* ---- the list of tests ---- *)

Section Times.
Context {A : Type} `{Dec A} {B : Type} `{Dec B}.

Lemma times_app (x : A) l l' : times x (l ++ l') = times x l + times x l'.
Proof. unfold times. now rewrite filter_app, app_length. Qed.

Lemma times_map_inj (f : A -> B) x l : (forall y, f x = f y -> x = y) -> times (f x) (map f l) = times x l.
Proof.
  intros I. unfold times. induction l as [|y l IH]; [reflexivity|]. cbn [map filter].
  destruct (eqd x y) eqn:E.
  - apply (proj1 (eqd_true _ _)) in E. subst y. rewrite eqd_refl. cbn. now rewrite IH.
  - destruct (eqd (f x) (f y)) eqn:F; [|exact IH]. apply (proj1 (eqd_true _ _)) in F. apply I in F. apply (proj1 (eqd_false _ _)) in E. contradiction.
Qed.

Lemma times_none (f : A -> B) z l : (forall y, f y <> z) -> times z (map f l) = 0.
Proof.
  intros I. unfold times. induction l as [|y l IH]; [reflexivity|]. cbn [map filter].
  destruct (eqd z (f y)) eqn:F; [apply (proj1 (eqd_true _ _)) in F; symmetry in F; now apply I in F|exact IH].
Qed.

Lemma times_concat (x : A) l n : times x (concat (repeat l n)) = n * times x l.
Proof. induction n as [|n IH]; [reflexivity|]. cbn [repeat concat]. rewrite times_app, IH. reflexivity. Qed.
End Times.

Lemma times_prod {A B : Type} `{Dec A} `{Dec B} `{Dec (A * B)} (a : A) (b : B) l l' :
  times (a, b) (list_prod l l') = times a l * times b l'.
Proof.
  induction l as [|x l IH]; [reflexivity|]. cbn [list_prod]. rewrite times_app, IH.
  assert (T : times a (x :: l) = (if eqd a x then 1 else 0) + times a l).
  { unfold times. cbn [filter]. now destruct (eqd a x). }
  rewrite T. destruct (eqd a x) eqn:E.
  - apply (proj1 (eqd_true _ _)) in E. subst x. rewrite (times_map_inj (fun y => (a, y)) b l'); [|congruence].
    lia.
  - rewrite times_none; [lia|]. intros y F. apply (proj1 (eqd_false _ _)) in E. congruence.
Qed.

Lemma flat_map_prod {A B C : Type} (f : A -> B -> C) l l' :
  flat_map (fun p => map (f p) l') l = map (fun pq => f (fst pq) (snd pq)) (list_prod l l').
Proof.
  induction l as [|x l IH]; [reflexivity|]. cbn [flat_map list_prod]. rewrite map_app, map_map, IH. reflexivity.
Qed.

Lemma test_list_times grid sizes clients confs coms iters cl sz cm cf :
  times (cl, sz, cm, cf) (test_list grid sizes clients confs coms iters) =
  iters * (times (sz, cl) (if grid then list_prod sizes clients else combine sizes clients) * (times cf confs * times cm coms)).
Proof.
  unfold test_list. rewrite times_concat. f_equal.
  rewrite (flat_map_prod (fun p q => (snd p, fst p, snd q, fst q))).
  rewrite <- (times_prod cf cm), <- times_prod.
  apply (times_map_inj (fun pq : (nat * nat) * (nat * nat) => (snd (fst pq), fst (fst pq), snd (snd pq), fst (snd pq)))
           ((sz, cl), (cf, cm))).
  intros [[? ?] [? ?]]. cbn. congruence.
Qed.

(* ---- the log ---- *)

Lemma run_tests_spec rest quit result tests : forall k l q, run_tests rest quit result k tests = (l, q) ->
  exists b, l = map (fun e => Entry (fst e) (snd e)) b /\
    b = combine (firstn (length b) (map (fun c => (c, rest)) tests)) (map result (seq k (length b))) /\
    length b <= length tests /\
    (forall j, k <= j < k + length b -> quit j = false) /\
    (if q then length b < length tests /\ quit (k + length b) = true else length b = length tests).
Proof.
  induction tests as [|c tests IH]; intros k l q E; cbn [run_tests] in E.
  - injection E as <- <-. exists []. cbn. repeat split; lia.
  - destruct (quit k) eqn:Q.
    + injection E as <- <-. exists []. cbn. rewrite Nat.add_0_r. repeat split; try lia; exact Q.
    + destruct (run_tests rest quit result (S k) tests) as [l' q'] eqn:R. injection E as <- <-.
      destruct (IH _ _ _ R) as [b [A [B [C [D F]]]]]. exists (((c, rest), result k) :: b).
      cbn [map length firstn seq combine fst snd]. split; [now rewrite A|]. split; [now rewrite <- B|].
      split; [lia|]. split.
      * intros j J. destruct (Nat.eq_dec j k) as [->|N]; [exact Q|]. apply D. lia.
      * destruct q'; [|lia]. rewrite <- plus_n_Sm. destruct F. split; [lia|assumption].
Qed.

Lemma run_repeats_spec rest quit result tests todo : forall i, exists blocks,
  run_repeats rest quit result tests i todo = log_of blocks /\ length blocks <= todo /\
  (forall j b, nth_error blocks j = Some b ->
     b = combine (firstn (length b) (map (fun c => (c, rest)) tests)) (map (result (i + j)) (seq 0 (length b))) /\
     length b <= length tests /\
     (forall k, k < length b -> quit (i + j) k = false) /\
     (length b < length tests -> quit (i + j) (length b) = true /\ S j = length blocks)) /\
  (length blocks < todo -> exists b, nth_error blocks (length blocks - 1) = Some b /\ length b < length tests).
Proof.
  induction todo as [|todo IH]; intros i; cbn [run_repeats].
  - exists []. split; [reflexivity|]. split; [cbn; lia|]. split; [intros [|j] b; discriminate|cbn; lia].
  - destruct (run_tests rest (quit i) (result i) 0 tests) as [l q] eqn:R.
    destruct (run_tests_spec _ _ _ _ _ _ _ R) as [b [A [B [C [D F]]]]]. subst l.
    destruct q.
    + exists [b]. split; [cbn; now rewrite !app_nil_r|]. split; [cbn; lia|]. split.
      * intros [|j] b' E; [|destruct j; discriminate E]. injection E as <-. rewrite Nat.add_0_r.
        split; [exact B|]. split; [exact C|]. split; [intros k K; apply D; lia|].
        intros _. destruct F as [_ F]. split; [exact F|reflexivity].
      * intros _. exists b. split; [reflexivity|apply F].
    + destruct (IH (S i)) as [bs [A' [B' [C' D']]]]. exists (b :: bs). split; [|split; [|split]].
      * rewrite A'. reflexivity.
      * cbn. lia.
      * intros [|j] b' E.
        -- injection E as <-. rewrite Nat.add_0_r. split; [exact B|]. split; [exact C|]. split; [intros k K; apply D; lia|]. lia.
        -- rewrite <- plus_n_Sm. destruct (C' j b' E) as [G1 [G2 [G3 G4]]]. split; [exact G1|]. split; [exact G2|]. split; [exact G3|].
           intros K. destruct (G4 K) as [G5 G6]. split; [exact G5|]. cbn. lia.
      * cbn [length]. intros K. destruct D' as [b' [E L]]; [lia|]. exists b'. split; [|exact L].
        destruct bs as [|b2 bs]; [discriminate E|]. cbn [length] in *. rewrite Nat.sub_succ, Nat.sub_0_r in *. exact E.
Qed.

(* ---- the report ---- *)

Definition recorded (p : params) (idx : nat) (b : list (params * Q)) : list (nat * list Q) :=
  match values p b with [] => [] | v :: vs => [(idx, v :: vs)] end.
Fixpoint runs_of (p : params) (idx : nat) (bs : list (list (params * Q))) : list (nat * list Q) :=
  match bs with [] => [] | b :: r => recorded p idx b ++ runs_of p (S idx) r end.

Definition read (idx : nat) (all : results) (b : list (params * Q)) : nat * results :=
  fold_left read_line (map (fun e => Entry (fst e) (snd e)) b) (idx, all).

Definition before (idx : nat) (d : list (nat * list Q)) := forall k, In k (keys d) -> k < idx.

Lemma values_app p b b' : values p (b ++ b') = values p b ++ values p b'.
Proof. unfold values. now rewrite filter_app, map_app. Qed.

Lemma put_last (idx : nat) (v w : list Q) d : before idx d -> put idx v (d ++ [(idx, w)]) = d ++ [(idx, v)].
Proof.
  unfold before. induction d as [|[k u] d IH]; intros Bf; cbn.
  - destruct (dec idx idx); congruence.
  - destruct (dec idx k) as [->|N]; [exfalso; specialize (Bf k (or_introl eq_refl)); lia|].
    rewrite IH; [reflexivity|]. intros j J. apply Bf. now right.
Qed.
Lemma get_last (idx : nat) (w : list Q) d : before idx d -> get idx (d ++ [(idx, w)]) = Some w.
Proof.
  unfold before. induction d as [|[k u] d IH]; intros Bf; cbn.
  - destruct (dec idx idx); congruence.
  - destruct (dec idx k) as [->|N]; [exfalso; specialize (Bf k (or_introl eq_refl)); lia|].
    apply IH. intros j J. apply Bf. now right.
Qed.
Lemma before_get idx d : before idx d -> get idx d = None.
Proof. intros Bf. apply get_None. intros K. apply Bf in K. lia. Qed.

(** The dict agrees with [f], and has a key only if [f] has something for it. *)
Definition agrees (all : results) (f : params -> list (nat * list Q)) : Prop :=
  forall p, get p all = match f p with [] => None | l => Some l end.

Lemma agrees_getd all f p : agrees all f -> getd p [] all = f p.
Proof. intros H. unfold getd. rewrite (H p). now destruct (f p). Qed.

Lemma read_block idx old b : (forall p, before idx (old p)) ->
  forall all, agrees all old -> NoDup (keys all) ->
  fst (read idx all b) = idx /\ agrees (snd (read idx all b)) (fun p => old p ++ recorded p idx b) /\
  NoDup (keys (snd (read idx all b))).
Proof.
  intros Bf all Ag ND.
  assert (G : forall done todo all', b = done ++ todo ->
    agrees all' (fun p => old p ++ recorded p idx done) -> NoDup (keys all') ->
    fst (read idx all' todo) = idx /\ agrees (snd (read idx all' todo)) (fun p => old p ++ recorded p idx b) /\
    NoDup (keys (snd (read idx all' todo)))).
  { intros done todo. revert done. induction todo as [|[q v] todo IH]; intros done all' E Ag' ND'.
    - rewrite app_nil_r in E. subst done. split; [reflexivity|]. split; assumption.
    - unfold read. cbn [map fold_left fst snd read_line].
      apply (IH (done ++ [(q, v)])); [now rewrite <- app_assoc| |now apply NoDup_keys_put].
      intros p. rewrite get_put. rewrite (agrees_getd _ _ q Ag').
      unfold recorded at 3. rewrite values_app. unfold values at 2. cbn [filter fst snd].
      destruct (dec p q) as [->|N].
      + rewrite eqd_refl. cbn [map snd].
        assert (R : put idx (getd idx [] (old q ++ recorded q idx done) ++ [v]) (old q ++ recorded q idx done) =
                    old q ++ [(idx, values q done ++ [v])]).
        { unfold recorded, getd. destruct (values q done) as [|w ws].
          - rewrite app_nil_r, (before_get _ _ (Bf q)). apply put_absent. now apply get_None, before_get.
          - rewrite get_last by apply Bf. now rewrite put_last by apply Bf. }
        rewrite R. destruct (values q done ++ [v]) as [|w ws] eqn:Ev; [destruct (values q done); discriminate Ev|].
        now destruct (old q).
      + replace (eqd q p) with false; [|symmetry; apply eqd_false; congruence]. cbn [map]. rewrite app_nil_r.
        exact (Ag' p). }
  apply (G [] b all); [reflexivity| |exact ND]. intros p. unfold recorded. cbn. rewrite app_nil_r. apply Ag.
Qed.

Lemma fold_block idx all b f : fold_left read_line (map (fun e => Entry (fst e) (snd e)) b ++ f) (idx, all) =
  fold_left read_line f (fst (read idx all b), snd (read idx all b)).
Proof. rewrite fold_left_app. unfold read. now rewrite <- surjective_pairing. Qed.

Lemma read_blocks bs : forall idx old all, (forall p, before idx (old p)) -> agrees all old -> NoDup (keys all) ->
  match bs with
  | [] => True
  | b :: r =>
      let out := snd (fold_left read_line (map (fun e => Entry (fst e) (snd e)) b ++ log_of r) (idx, all)) in
      agrees out (fun p => old p ++ runs_of p idx bs) /\ NoDup (keys out)
  end.
Proof.
  induction bs as [|b r IH]; intros idx old all Bf Ag ND; [exact Logic.I|]. cbn zeta. rewrite fold_block.
  destruct (read_block idx old b Bf all Ag ND) as [A [B C]]. rewrite A.
  destruct r as [|b2 r].
  - cbn. split; [|exact C]. intros p. rewrite app_nil_r. apply B.
  - change (log_of (b2 :: r)) with (Info :: (map (fun e => Entry (fst e) (snd e)) b2 ++ log_of r)).
    cbn [fold_left read_line].
    assert (Bf' : forall p, before (S idx) (old p ++ recorded p idx b)).
    { intros p k K. unfold keys in K. rewrite map_app, in_app_iff in K. destruct K as [K|K]; [apply Bf in K; lia|].
      unfold recorded in K. destruct (values p b); [destruct K|]. destruct K as [<-|[]]. cbn. lia. }
    destruct (IH (S idx) (fun p => old p ++ recorded p idx b) (snd (read idx all b)) Bf' B C) as [X Y].
    split; [|exact Y]. intros p. rewrite (X p). cbn [runs_of]. now rewrite <- app_assoc.
Qed.

Lemma read_log_spec bs : agrees (read_log (log_of bs)) (fun p => runs_of p 0 bs) /\ NoDup (keys (read_log (log_of bs))).
Proof.
  destruct bs as [|b r]; [split; [intros p; reflexivity|constructor]|].
  pose proof (read_blocks (b :: r) 0 (fun _ => []) [] (fun p k K => match K with end) (fun p => eq_refl) (NoDup_nil _)) as H.
  exact H.
Qed.

Lemma runs_values p bs : forall idx, map snd (runs_of p idx bs) = per_repeat p bs.
Proof.
  unfold per_repeat. induction bs as [|b r IH]; intros idx; [reflexivity|]. cbn [runs_of map filter].
  rewrite map_app, IH. unfold recorded. destruct (values p b); reflexivity.
Qed.

Lemma cells_get (all : results) c rest runs : NoDup (keys all) ->
  (forall p, In p (keys all) -> fst p = c -> snd p = rest) ->
  get (c, rest) all = Some runs ->
  get c (cells all) = Some (median (map (fun r => mean (snd r)) runs)).
Proof.
  unfold cells. intros ND U G. apply get_In in G.
  assert (K : forall (l : results) acc, NoDup (keys l) -> (forall p, In p (keys l) -> fst p = c -> snd p = rest) ->
     get c (fold_left (fun acc e => put (fst (fst e)) (median (map (fun r => mean (snd r)) (snd e))) acc) l acc) =
     match get (c, rest) l with Some rs => Some (median (map (fun r => mean (snd r)) rs)) | None => get c acc end).
  { induction l as [|[[c' rest'] rs] l IH]; intros acc N V; [reflexivity|].
    inversion N as [|? ? Ni N']; subst. cbn [fold_left fst snd]. rewrite IH; [|exact N'|intros p P; apply V; now right].
    cbn [get]. destruct (dec (c, rest) (c', rest')) as [E|E].
    - injection E as <- <-. replace (get (c, rest) l) with (@None (list (nat * list Q))); [apply get_put_eq|].
      symmetry. now apply get_None.
    - destruct (get (c, rest) l); [reflexivity|]. apply get_put_neq. intros <-. apply E.
      f_equal. symmetry. exact (V (c, rest') (or_introl eq_refl) eq_refl). }
  rewrite K by assumption. now rewrite (In_get _ _ _ ND G).
Qed.

Lemma cells_none (all : results) c : (forall p, In p (keys all) -> fst p <> c) -> get c (cells all) = None.
Proof.
  unfold cells. intros H.
  assert (K : forall (l : results) acc, (forall p, In p (keys l) -> fst p <> c) ->
     get c (fold_left (fun acc e => put (fst (fst e)) (median (map (fun r => mean (snd r)) (snd e))) acc) l acc) = get c acc).
  { induction l as [|[[c' rest'] rs] l IH]; intros acc V; [reflexivity|]. cbn [fold_left fst snd].
    rewrite IH; [|intros p P; apply V; now right]. apply get_put_neq. intros ->. now apply (V (c', rest') (or_introl eq_refl)). }
  now rewrite K.
Qed.

Lemma runs_key p bs : In p (keys (read_log (log_of bs))) <-> In p (map fst (concat bs)).
Proof.
  destruct (read_log_spec bs) as [A _]. specialize (A p).
  assert (E : (runs_of p 0 bs = [] <-> ~ In p (map fst (concat bs)))).
  { generalize 0 as i. clear A. induction bs as [|b r IH]; intros i; [cbn; tauto|]. cbn [runs_of concat].
    rewrite map_app, in_app_iff.
    assert (V : values p b = [] <-> ~ In p (map fst b)).
    { unfold values. induction b as [|[q v] b IHb]; [cbn; tauto|]. cbn [filter map fst In].
      destruct (eqd q p) eqn:Q.
      - apply (proj1 (eqd_true _ _)) in Q. split; [discriminate|]. intros N. exfalso. apply N. now left.
      - apply (proj1 (eqd_false _ _)) in Q. rewrite IHb. tauto. }
    unfold recorded. destruct (values p b) as [|w ws].
    - cbn [app]. rewrite IH. tauto.
    - split; [discriminate|]. intros N. assert (F : w :: ws = []) by (apply V; tauto). discriminate F. }
  split; intros K.
  - destruct (key_get _ _ K) as [rs G]. rewrite G in A.
    destruct (runs_of p 0 bs) eqn:R; [discriminate|]. destruct (in_dec (dec (K := params)) p (map fst (concat bs))) as [I1|N]; [exact I1|].
    exfalso. apply E in N. discriminate N.
  - destruct (get p (read_log (log_of bs))) as [rs|] eqn:G; [now apply get_Some_key in G|].
    destruct (runs_of p 0 bs) eqn:R; [|discriminate]. exfalso. now apply (proj1 E eq_refl).
Qed.

Lemma report_value bs c rest : In (c, rest) (map fst (concat bs)) ->
  (forall rest', In (c, rest') (map fst (concat bs)) -> rest' = rest) ->
  load_perf (log_of bs) c = Some (median (map mean (per_repeat (c, rest) bs))) /\ per_repeat (c, rest) bs <> [].
Proof.
  intros K U. destruct (read_log_spec bs) as [A ND]. specialize (A (c, rest)).
  apply runs_key in K. destruct (key_get _ _ K) as [rs G]. rewrite G in A.
  assert (R : runs_of (c, rest) 0 bs = rs /\ rs <> []).
  { destruct (runs_of (c, rest) 0 bs); [discriminate|]. injection A as ->. split; [reflexivity|discriminate]. }
  destruct R as [R Nr]. split.
  - unfold load_perf. rewrite (cells_get _ c rest rs ND); [|intros [c' r'] P E; cbn in E; subst c'; apply U; now apply runs_key|exact G].
    rewrite <- (runs_values (c, rest) bs 0), R, map_map. reflexivity.
  - rewrite <- (runs_values (c, rest) bs 0), R. destruct rs; [congruence|discriminate].
Qed.

Lemma report_none bs c : (forall rest, ~ In (c, rest) (map fst (concat bs))) -> load_perf (log_of bs) c = None.
Proof.
  intros H. unfold load_perf. apply cells_none. intros [c' r] P E. cbn in E. subst c'. apply runs_key in P. now apply H in P.
Qed.

Lemma means_are rs : (forall r, In r rs -> r <> []) -> Forall2 is_mean (map mean rs) rs.
Proof.
  induction rs as [|r rs IH]; intros H; [constructor|]. constructor; [apply mean_is; apply H; now left|].
  apply IH. intros x X. apply H. now right.
Qed.
Lemma per_repeat_ne p bs r : In r (per_repeat p bs) -> r <> [].
Proof. unfold per_repeat. intros K. apply filter_In in K as [_ K]. now destruct r. Qed.
