(* Lemmas about arrays, slices and the numpy functions of ArrayModel.v. *)

From Coq Require Import List Bool Arith ZArith QArith Lia Sorted.
From Verif Require Import Dict ArrayModel ArraySpec.
Import ListNotations.
Local Open Scope nat_scope.

(** ** upd, remove_nth, insert_nth *)

Lemma length_upd {X} k (v : X) l : length (upd k v l) = length l.
Proof. revert k; induction l as [|x l IH]; intros [|k]; simpl; auto. Qed.

Lemma nth_upd {X} k (v : X) l j d :
  nth j (upd k v l) d = if Nat.eqb j k && (k <? length l) then v else nth j l d.
Proof.
  revert k j; induction l as [|x l IH]; intros [|k] [|j]; simpl; auto.
  - destruct (Nat.eqb j k); reflexivity.
  - rewrite IH. change (S k <? S (length l)) with (k <? length l). reflexivity.
Qed.

Lemma nth_upd_eq {X} k (v : X) l d : k < length l -> nth k (upd k v l) d = v.
Proof. intros. rewrite nth_upd, Nat.eqb_refl. apply Nat.ltb_lt in H. rewrite H. reflexivity. Qed.

Lemma nth_upd_neq {X} k (v : X) l j d : j <> k -> nth j (upd k v l) d = nth j l d.
Proof. intros. rewrite nth_upd. apply Nat.eqb_neq in H. rewrite H. reflexivity. Qed.

Lemma upd_same {X} k (l : list X) d : upd k (nth k l d) l = l.
Proof. revert k; induction l as [|x l IH]; intros [|k]; simpl; auto. rewrite IH. reflexivity. Qed.

Lemma upd_upd {X} k (v w : X) l : upd k v (upd k w l) = upd k v l.
Proof. revert k; induction l as [|x l IH]; intros [|k]; simpl; auto. rewrite IH. reflexivity. Qed.

Lemma upd_out {X} k (v : X) l : length l <= k -> upd k v l = l.
Proof. revert k; induction l as [|x l IH]; intros [|k]; simpl; intros; auto; [lia|]. rewrite IH by lia. reflexivity. Qed.

Lemma list_ext {X} (l1 l2 : list X) d :
  length l1 = length l2 -> (forall k, k < length l1 -> nth k l1 d = nth k l2 d) -> l1 = l2.
Proof. intros. apply (nth_ext l1 l2 d d); auto. Qed.

(** ** Ranges *)

Lemma in_range_length sh idx : in_range sh idx -> length idx = length sh.
Proof. intros H. induction H; simpl; congruence. Qed.

Lemma in_range_nth sh idx k : in_range sh idx -> k < length sh -> nth k idx 0 < nth k sh 0.
Proof.
  intro H. revert k. induction H as [|i s idx sh Hl H IH]; intros [|k] Hk; simpl in *; try lia. apply IH; lia.
Qed.

Lemma in_range_iff sh idx :
  in_range sh idx <-> length idx = length sh /\ forall k, k < length sh -> nth k idx 0 < nth k sh 0.
Proof.
  split.
  - intros H. split; [apply in_range_length; assumption|]. intros. apply in_range_nth; assumption.
  - revert idx. induction sh as [|s sh IH]; intros [|i idx] [Hl Hn]; simpl in *; try discriminate; constructor.
    + apply (Hn 0); lia.
    + apply IH. split; [lia|]. intros k Hk. apply (Hn (S k)); lia.
Qed.

Lemma in_range_upd sh idx k i n : in_range (upd k n sh) idx -> i < nth k sh 0 -> k < length sh -> in_range sh (upd k i idx).
Proof.
  intros H Hi Hk. apply in_range_iff in H. destruct H as [Hl Hn]. rewrite length_upd in *. apply in_range_iff.
  rewrite length_upd. split; [assumption|]. intros j Hj. rewrite nth_upd. rewrite Hl.
  destruct (Nat.eqb_spec j k) as [->|Hne]; simpl.
  - replace (k <? length sh) with true by (symmetry; apply Nat.ltb_lt; assumption). assumption.
  - specialize (Hn j Hj). rewrite nth_upd_neq in Hn by assumption. assumption.
Qed.

Lemma same_refl {A} (a : arr A) : same a a.
Proof. split; auto. Qed.

Lemma same_sym {A} (a b : arr A) : same a b -> same b a.
Proof. intros [H1 H2]. split; [auto|]. intros idx Hi. symmetry. apply H2. rewrite H1. assumption. Qed.

Lemma same_trans {A} (a b c : arr A) : same a b -> same b c -> same a c.
Proof. intros [H1 H2] [H3 H4]. split; [congruence|]. intros idx Hi. rewrite H2 by assumption. apply H4. rewrite <- H1. assumption. Qed.

(** ** take *)

Lemma take_all {A} (a : arr A) k : same (take a (seq 0 (size_at k a)) k) a.
Proof.
  unfold take, size_at. split; simpl.
  - rewrite seq_length. apply upd_same.
  - intros idx Hi. rewrite seq_length, upd_same in Hi. destruct (Nat.lt_ge_cases k (length (shape a))) as [Hk|Hk].
    + pose proof (in_range_nth _ _ _ Hi Hk). rewrite seq_nth by assumption. simpl. rewrite upd_same. reflexivity.
    + rewrite upd_out; [reflexivity|]. rewrite (in_range_length _ _ Hi). assumption.
Qed.

Lemma ndim_take {A} (a : arr A) l k : ndim (take a l k) = ndim a.
Proof. unfold ndim, take. simpl. apply length_upd. Qed.

Lemma size_take {A} (a : arr A) l k j :
  k < ndim a -> size_at j (take a l k) = if Nat.eqb j k then length l else size_at j a.
Proof.
  intros Hk. unfold size_at, take. simpl. rewrite nth_upd. apply Nat.ltb_lt in Hk. unfold ndim in Hk. rewrite Hk.
  rewrite andb_true_r. reflexivity.
Qed.

(** ** concatenate of pieces taken from one array *)

Lemma cat_takes {A} (a : arr A) k : k < ndim a -> forall ls l idx,
  length idx = ndim a -> nth k idx 0 < length (l ++ concat ls) ->
  cat_elt k (take a l k) (map (fun l => take a l k) ls) idx = elt (take a (l ++ concat ls) k) idx.
Proof.
  intros Hk. induction ls as [|l2 ls IH]; intros l idx Hl Hi.
  - simpl. rewrite app_nil_r in *. destruct (nth k idx 0 <? size_at k (take a l k)); reflexivity.
  - cbn [map cat_elt]. rewrite size_take, Nat.eqb_refl by assumption.
    destruct (Nat.ltb_spec (nth k idx 0) (length l)) as [Hlt|Hge].
    + unfold take; simpl. rewrite app_nth1 by assumption. reflexivity.
    + rewrite IH.
      * unfold take; simpl. unfold ndim in *. rewrite nth_upd_eq by lia. rewrite upd_upd.
        rewrite (app_nth2 l) by assumption. reflexivity.
      * rewrite length_upd. assumption.
      * rewrite nth_upd_eq by (unfold ndim in *; lia). simpl in Hi. rewrite !app_length in *. lia.
Qed.

Lemma concatenate_takes {A} (a : arr A) k l ls : k < ndim a ->
  exists r, concatenate (map (fun l => take a l k) (l :: ls)) k = Some r /\ same r (take a (concat (l :: ls)) k).
Proof.
  intros Hk. cbn [map concatenate]. rewrite ndim_take.
  replace (k <? ndim a) with true by (symmetry; apply Nat.ltb_lt; assumption).
  replace (forallb _ _) with true.
  2:{ symmetry. apply forallb_forall. intros b Hb. apply in_map_iff in Hb. destruct Hb as [l2 [<- _]].
      apply eqd_true. unfold take; simpl. rewrite !upd_upd. reflexivity. }
  simpl. eexists; split; [reflexivity|]. split; simpl.
  - rewrite upd_upd. f_equal. rewrite app_length.
    assert (Hs : forall ls, list_sum (map (size_at k) (map (fun l => take a l k) ls)) = length (concat ls)).
    { induction ls0 as [|l0 ls0 IH]; simpl; [reflexivity|]. rewrite app_length, IH.
      rewrite size_take, Nat.eqb_refl by assumption. reflexivity. }
    rewrite <- Hs. simpl. rewrite size_take, Nat.eqb_refl by assumption. reflexivity.
  - intros idx Hi. rewrite upd_upd in Hi.
    assert (Hl : length idx = ndim a). { apply in_range_length in Hi. rewrite length_upd in Hi. exact Hi. }
    rewrite cat_takes; [reflexivity|assumption|assumption|].
    apply in_range_nth with (k := k) in Hi; [|rewrite length_upd; exact Hk].
    rewrite nth_upd_eq in Hi by exact Hk.
    assert (Hs : forall ls, list_sum (map (size_at k) (map (fun l => take a l k) ls)) = length (concat ls)).
    { induction ls0 as [|l0 ls0 IH]; simpl; [reflexivity|]. rewrite app_length, IH.
      rewrite size_take, Nat.eqb_refl by assumption. reflexivity. }
    rewrite Hs in Hi. rewrite size_take, Nat.eqb_refl in Hi by assumption. rewrite app_length. exact Hi.
Qed.

(** ** Slices *)

Lemma map_seq_ext {X} (f g : nat -> X) n : (forall i, i < n -> f i = g i) -> map f (seq 0 n) = map g (seq 0 n).
Proof. intros H. apply map_ext_in. intros i Hi. apply in_seq in Hi. apply H. lia. Qed.

Lemma seq_map_add s n : seq s n = map (fun i => s + i) (seq 0 n).
Proof.
  apply (list_ext _ _ 0); [rewrite map_length, !seq_length; reflexivity|].
  intros k Hk. rewrite seq_length in Hk. rewrite seq_nth by assumption.
  rewrite (nth_indep _ 0 (s + 0)) by (rewrite map_length, seq_length; assumption).
  rewrite (map_nth (fun i => s + i)), seq_nth by assumption. reflexivity.
Qed.

Lemma slice_seq (i j n : nat) :
  slice_indices (Slice (Some (Z.of_nat i)) (Some (Z.of_nat j)) None) n = Some (seq (Nat.min i n) (Nat.min j n - Nat.min i n)).
Proof.
  unfold slice_indices. simpl sl_start. simpl sl_stop. simpl sl_step. cbn match. change (1 =? 0)%Z with false. cbn match. f_equal.
  assert (Hc : forall x, (if (Z.of_nat x <? 0)%Z then if (Z.of_nat x + Z.of_nat n <? 0)%Z then if (1 <? 0)%Z then (-1)%Z else 0%Z
     else (Z.of_nat x + Z.of_nat n)%Z else if (Z.of_nat n <=? Z.of_nat x)%Z then if (1 <? 0)%Z then (Z.of_nat n - 1)%Z else Z.of_nat n else Z.of_nat x) = Z.of_nat (Nat.min x n)).
  { intros x. destruct (Z.ltb_spec (Z.of_nat x) 0); [lia|]. destruct (Z.leb_spec (Z.of_nat n) (Z.of_nat x)); simpl; lia. }
  rewrite !Hc. replace (1 <? 0)%Z with false by reflexivity.
  rewrite (seq_map_add (Nat.min i n)).
  destruct (Z.ltb_spec (Z.of_nat (Nat.min i n)) (Z.of_nat (Nat.min j n))) as [Hlt|Hge].
  - rewrite Z.div_1_r. replace (Z.to_nat _) with (Nat.min j n - Nat.min i n) by lia. apply map_ext. intros; lia.
  - replace (Nat.min j n - Nat.min i n) with 0 by lia. reflexivity.
Qed.

(** The slice [::step]. *)
Lemma slice_step (step : Z) n : (1 <= step)%Z ->
  slice_indices (Slice None None (Some step)) n =
  Some (map (fun i => i * Z.to_nat step) (seq 0 (match n with 0 => 0 | S m => S (m / Z.to_nat step) end))).
Proof.
  intros Hs. unfold slice_indices. simpl sl_start. simpl sl_stop. simpl sl_step. cbn match.
  destruct (Z.eqb_spec step 0); [lia|]. f_equal. destruct (Z.ltb_spec step 0); [lia|].
  destruct n as [|m].
  - reflexivity.
  - destruct (Z.ltb_spec 0 (Z.of_nat (S m))); [|lia].
    assert (Hc : Z.to_nat ((Z.of_nat (S m) - 0 - 1) / step + 1) = S (m / Z.to_nat step)).
    { replace (Z.of_nat (S m) - 0 - 1)%Z with (Z.of_nat m) by lia. rewrite <- (Z2Nat.id step) at 1 by lia.
      rewrite <- Nat2Z.inj_div. rewrite Z2Nat.inj_add by lia. rewrite Nat2Z.id. lia. }
    rewrite Hc. apply map_ext. intros i. rewrite Z.add_0_l, Z2Nat.inj_mul, Nat2Z.id by lia. reflexivity.
Qed.

(** Consecutive runs. *)
Lemma slices_cover stops : forall start n,
  StronglySorted lt (start :: stops) -> last (start :: stops) 0 = n ->
  exists ls, map (fun s => slice_indices s n) (slices start stops) = map Some ls /\ concat ls = seq start (n - start) /\
             length ls = length stops /\ (forall l, In l ls -> l <> []).
Proof.
  induction stops as [|e stops IH]; intros start n Hs Hl.
  - simpl in Hl. subst. exists []. simpl. rewrite Nat.sub_diag. split; [reflexivity|]. split; [reflexivity|]. split; [reflexivity|]. intros ? [].
  - inversion Hs as [|? ? Hs' Hf]; subst. destruct (IH e (last (start :: e :: stops) 0) Hs' eq_refl) as [ls [H1 [H2 [H3 H4]]]].
    set (n := last (start :: e :: stops) 0) in *.
    assert (Hse : start < e) by (inversion Hf; assumption).
    assert (Hen : e <= n).
    { unfold n. change (last (start :: e :: stops) 0) with (last (e :: stops) 0). inversion Hs' as [|? ? _ Hf2]; subst.
      destruct (@exists_last _ (e :: stops)) as [l' [x Hx]]; [discriminate|]. rewrite Hx, last_last.
      assert (Hin : In x (e :: stops)) by (rewrite Hx; apply in_or_app; right; left; reflexivity).
      destruct Hin as [->|Hin]; [lia|]. rewrite Forall_forall in Hf2. specialize (Hf2 x Hin). lia. }
    exists (seq start (e - start) :: ls). cbn [slices map]. rewrite H1, slice_seq.
    rewrite !Nat.min_l by lia. split; [reflexivity|]. split.
    + simpl. rewrite H2. replace (n - start) with ((e - start) + (n - e)) by lia. rewrite seq_app. do 2 f_equal; lia.
    + split; [simpl; congruence|]. intros l [<-|Hin]; [|auto]. replace (e - start) with (S (e - start - 1)) by lia. discriminate.
Qed.

(** ** make *)

Lemma dedup_length {D} `{Dec D} (ds : list D) : length (fold_left (fun s x => sadd x s) ds []) = length ds <-> NoDup ds.
Proof.
  assert (Hg : forall (l acc : list D), NoDup acc -> length (fold_left (fun s x => sadd x s) l acc) <= length acc + length l /\
     (length (fold_left (fun s x => sadd x s) l acc) = length acc + length l <-> NoDup l /\ forall x, In x l -> ~ In x acc)).
  { induction l as [|x l IH]; intros acc Ha; cbn [fold_left].
    - simpl. split; [lia|]. split; [|lia]. intros _. split; [constructor|]. intros ? [].
    - destruct (IH (sadd x acc) (NoDup_sadd x acc Ha)) as [Hle Hiff]. unfold sadd in *.
      destruct (mem x acc) eqn:Hm.
      + simpl. split; [lia|]. split; [intros; lia|]. intros [_ Hn]. exfalso. apply (Hn x); [left; reflexivity|]. apply mem_In. assumption.
      + apply mem_false in Hm. rewrite app_length in *. simpl in *. split; [lia|]. split.
        * intros He. assert (Hx : length (fold_left (fun s x => if mem x s then s else s ++ [x]) l (acc ++ [x])) = length acc + 1 + length l) by lia.
          apply Hiff in Hx. destruct Hx as [Hn Hd]. split.
          -- constructor; [|assumption]. intros Hin. apply (Hd x Hin). apply in_or_app. right; left; reflexivity.
          -- intros y [<-|Hy]; [assumption|]. intros Hin. apply (Hd y Hy). apply in_or_app. left; assumption.
        * intros [Hn Hd]. inversion Hn as [|? ? Hni Hn']; subst.
          assert (Hx : NoDup l /\ (forall y, In y l -> ~ In y (acc ++ [x]))).
          { split; [assumption|]. intros y Hy Hin. apply in_app_or in Hin. destruct Hin as [Hin|[<-|[]]]; [|contradiction].
            apply (Hd y); [right; assumption|assumption]. }
          apply Hiff in Hx. lia. }
  destruct (Hg ds [] (NoDup_nil _)) as [_ Hiff]. simpl in Hiff. rewrite Hiff. split; [intros [? _]; assumption|]. intros; split; auto.
Qed.

Section Make.
Context {A D U V T K : Type} `{Dec D} `{Dec K}.

Lemma make_Some (d : arr A) ds (axs : list (D * axis D U V)) (t : T) (k : K) r :
  make d ds axs t k = Some r <-> length ds = ndim d /\ NoDup ds /\ r = AA d ds axs t k.
Proof.
  unfold make. destruct (Nat.eqb_spec (length ds) (ndim d)) as [He|He]; simpl.
  - destruct (eqd _ _) eqn:Heq.
    + apply (proj1 (eqd_true _ _)) in Heq. apply dedup_length in Heq. split.
      * intros [= <-]. auto.
      * intros [_ [_ ->]]. reflexivity.
    + split; [discriminate|]. intros [_ [Hn _]]. apply dedup_length in Hn. apply (proj1 (eqd_false _ _)) in Heq. contradiction.
  - split; [discriminate|]. intros [? _]. contradiction.
Qed.

Lemma make_ok (d : arr A) ds (axs : list (D * axis D U V)) (t : T) (k : K) :
  length ds = ndim d -> NoDup ds -> make d ds axs t k = Some (AA d ds axs t k).
Proof. intros. apply make_Some. auto. Qed.
End Make.

Lemma index_of_Some {D} `{Dec D} (x : D) l k : index_of x l = Some k -> nth_error l k = Some x /\ k < length l.
Proof.
  revert k. induction l as [|y l IH]; intros k; simpl; [discriminate|].
  destruct (dec x y) as [->|Hn]; [intros [= <-]; split; [reflexivity|lia]|].
  destruct (index_of x l) as [j|] eqn:Hj; simpl; [|discriminate]. intros [= <-]. destruct (IH j eq_refl). simpl. split; [assumption|lia].
Qed.

Lemma index_of_nth {D} `{Dec D} (l : list D) k x : NoDup l -> nth_error l k = Some x -> index_of x l = Some k.
Proof.
  intros Hn. revert k. induction Hn as [|y l Hy Hn IH]; intros [|k]; simpl; try discriminate.
  - intros [= ->]. destruct (dec x x); [reflexivity|contradiction].
  - intros He. destruct (dec x y) as [->|Hne]; [exfalso; apply Hy; eapply nth_error_In; eassumption|]. rewrite (IH k He). reflexivity.
Qed.

Lemma index_of_None {D} `{Dec D} (x : D) l : index_of x l = None <-> ~ In x l.
Proof.
  induction l as [|y l IH]; simpl; [tauto|]. destruct (dec x y) as [->|Hn].
  - split; [discriminate|]. intros Hx. exfalso. apply Hx. left; reflexivity.
  - destruct (index_of x l); simpl.
    + split; [discriminate|]. intros Hx. exfalso. apply Hx. right. destruct (in_dec dec x l); [assumption|]. apply IH in n0. discriminate.
    + split; [|reflexivity]. intros _ [->|Hin]; [contradiction|]. apply IH in Hin; [assumption|reflexivity].
Qed.

Lemma sequence_Some {X} (l : list (option X)) r : sequence l = Some r <-> l = map Some r.
Proof.
  revert r. induction l as [|[x|] l IH]; intros r; simpl.
  - split; [intros [= <-]; reflexivity|]. destruct r; [reflexivity|discriminate].
  - destruct (sequence l) as [l'|]; simpl.
    + split.
      * intros [= <-]. simpl. f_equal. apply IH. reflexivity.
      * destruct r as [|y r]; [discriminate|]. simpl. intros [= -> Hr]. apply IH in Hr. congruence.
    + split; [discriminate|]. destruct r as [|y r]; [discriminate|]. simpl. intros [= -> Hr]. apply IH in Hr. discriminate.
  - split; [discriminate|]. destruct r; discriminate.
Qed.

Lemma norm_axis_Some nd z k : norm_axis nd z = Some k -> k < nd /\ (z = Z.of_nat k \/ z = Z.of_nat k - Z.of_nat nd)%Z.
Proof.
  unfold norm_axis. destruct (Z.ltb_spec z (- Z.of_nat nd)); [discriminate|]. destruct (Z.leb_spec (Z.of_nat nd) z); [discriminate|]. simpl.
  destruct (Z.ltb_spec z 0); intros [= <-]; split; lia.
Qed.

Lemma norm_axis_of_nat nd k : k < nd -> norm_axis nd (Z.of_nat k) = Some k.
Proof.
  intros. unfold norm_axis. destruct (Z.ltb_spec (Z.of_nat k) (- Z.of_nat nd)); [lia|]. destruct (Z.leb_spec (Z.of_nat nd) (Z.of_nat k)); [lia|]. simpl.
  destruct (Z.ltb_spec (Z.of_nat k) 0); [lia|]. rewrite Nat2Z.id. reflexivity.
Qed.
