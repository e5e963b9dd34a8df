(* C52: array_chunker cuts an array into labelled chunks without losing or moving a sample. *)

From Coq Require Import List Bool Arith ZArith QArith Lia.
From Verif Require Import Dict ArrayModel ArraySpec ArrayProofs.
Import ListNotations.
Local Open Scope nat_scope.

Section Chunks.
Context {A D U V T K : Type} `{Dec D} `{Dec K}.
Variables (key0 : K) (time_ : D) (dname : nat -> D) (sec : U) (attrs0 : T).
Hypothesis dname_inj : forall i j, dname i = dname j -> i = j.
Hypothesis dname_time : forall i, dname i <> time_.

Lemma out_dims_ok n k : NoDup (upd k time_ (map dname (seq 0 n))).
Proof.
  assert (Hg : forall m k s, NoDup (upd k time_ (map dname (seq s m))) /\
     (forall x, In x (upd k time_ (map dname (seq s m))) -> x = time_ \/ exists j, s <= j /\ x = dname j)).
  { induction m as [|m IH]; intros j s; simpl; [split; [destruct j; simpl; apply NoDup_nil|]; destruct j; intros ? []|].
    destruct j as [|j]; simpl.
    - split.
      + constructor.
        * intros Hin. apply in_map_iff in Hin. destruct Hin as [i [Hi _]]. apply (dname_time i Hi).
        * clear IH. generalize (S s). induction m as [|m IH]; intros s'; simpl; constructor; [|apply IH].
          intros Hin. apply in_map_iff in Hin. destruct Hin as [i [Hi Hin]]. apply dname_inj in Hi. apply in_seq in Hin. lia.
      + intros x [<-|Hin]; [left; reflexivity|]. apply in_map_iff in Hin. destruct Hin as [i [<- Hin]]. apply in_seq in Hin. right. exists i. split; [lia|reflexivity].
    - destruct (IH j (S s)) as [H1 H2]. split.
      + constructor; [|assumption]. intros Hin. destruct (H2 _ Hin) as [Ht|[i [Hi He]]]; [apply (dname_time s Ht)|]. apply dname_inj in He. lia.
      + intros x [<-|Hin]; [right; exists s; split; [lia|reflexivity]|]. destruct (H2 _ Hin) as [Ht|[i [Hi He]]]; [left; assumption|]. right. exists i. split; [lia|assumption]. }
  apply Hg.
Qed.

Lemma ceil_div (n c : nat) : 0 < c -> 0 < n -> Z.to_nat (- ((- Z.of_nat n) / Z.of_nat c)) = S ((n - 1) / c).
Proof.
  intros Hc Hn.
  assert (Hz : (- Z.of_nat n / Z.of_nat c = - Z.of_nat (S ((n - 1) / c)))%Z).
  { symmetry. apply Z.div_unique with (r := (Z.of_nat c - 1 - Z.of_nat ((n - 1) mod c))%Z).
    - left. pose proof (Nat.mod_upper_bound (n - 1) c). lia.
    - pose proof (Nat.div_mod (n - 1) c). nia. }
  rewrite Hz. lia.
Qed.

Definition chunker := @array_chunker A D U V T K _ key0 time_ dname sec attrs0.

Lemma chunk_seqs (n c : nat) : 0 < c -> forall m s,
  concat (map (fun i => seq (Nat.min (i * c) n) (Nat.min ((i + 1) * c) n - Nat.min (i * c) n)) (seq s m)) =
  seq (Nat.min (s * c) n) (Nat.min ((s + m) * c) n - Nat.min (s * c) n).
Proof.
  intros Hc. induction m as [|m IH]; intros s.
  - simpl. rewrite Nat.add_0_r, Nat.sub_diag. reflexivity.
  - cbn [seq map concat]. rewrite IH.
    replace (Nat.min ((s + S m) * c) n - Nat.min (s * c) n)
      with ((Nat.min ((s + 1) * c) n - Nat.min (s * c) n) + (Nat.min ((S s + m) * c) n - Nat.min (S s * c) n)) by nia.
    rewrite seq_app. f_equal. f_equal; nia.
Qed.

Theorem C52_chunks (d : arr A) (c : nat) (axis_ : Z) (fs tzero : Q) (k : nat) :
  norm_axis (ndim d) axis_ = Some k -> 0 < c -> ~ (fs == 0)%Q -> 0 < size_at k d ->
  exists cs, chunker d (Z.of_nat c) axis_ fs tzero = Some cs /\
    (* the chunks put together again are the data *)
    (exists r, concatenate (map data cs) k = Some r /\ same r d) /\
    (* all but the last have [c] samples, the last has what is left, and at least one *)
    length cs <> 0 /\
    (forall i a, nth_error cs i = Some a ->
       1 <= size_at k (data a) <= c /\ (S i < length cs -> size_at k (data a) = c) /\
       (* sample j of chunk i is sample i*c + j of the data, and its time is that of this sample *)
       (forall j idx, in_range (shape d) idx -> j < size_at k (data a) ->
          i * c + j < size_at k d /\ elt (data a) (upd k j idx) = elt d (upd k (i * c + j) idx)) /\
       nth_error (dims a) k = Some time_ /\ length (dims a) = ndim d /\ NoDup (dims a) /\ keys (axes a) = [time_] /\
       exists g o, get time_ (axes a) = Some (Linear sec g o) /\
         forall j, (lin_value g o (Z.of_nat j) == tzero + inject_Z (Z.of_nat (i * c + j)) / fs)%Q).
Proof.
  intros Hk Hc Hfs Hn. destruct (norm_axis_Some _ _ _ Hk) as [Hkn Haxis].
  set (n := size_at k d) in *. set (m := S ((n - 1) / c)).
  set (od := upd k time_ (map dname (seq 0 (ndim d)))).
  set (ch := fun i : nat => AA (take d (seq (Nat.min (i * c) n) (Nat.min ((i + 1) * c) n - Nat.min (i * c) n)) k) od
         [(time_, Linear sec (1 / fs)%Q (inject_Z (Z.of_nat i) * inject_Z (Z.of_nat c) / fs + tzero)%Q)] attrs0 key0 : aa A D U V T K).
  assert (Hod : length od = ndim d) by (unfold od; rewrite length_upd, map_length, seq_length; reflexivity).
  exists (map ch (seq 0 m)). split; [|split; [|split]].
  - unfold chunker, array_chunker. rewrite Hk. destruct (Z.eqb_spec (Z.of_nat c) 0); [lia|].
    destruct (Qeq_bool fs 0) eqn:Hq; [apply Qeq_bool_eq in Hq; contradiction|].
    fold n. cbv zeta. pose proof (ceil_div n c Hc Hn) as Hcd. fold m in Hcd.
    destruct (Z.leb_spec (- (- Z.of_nat n / Z.of_nat c)) 0) as [Hz|Hz]; [unfold m in Hcd; lia|].
    rewrite Hcd. fold od. apply sequence_Some. rewrite map_map. apply map_ext. intros i.
    unfold slice_along_axis. rewrite Hk.
    replace (Z.of_nat i * Z.of_nat c)%Z with (Z.of_nat (i * c)) by lia.
    replace ((Z.of_nat i + 1) * Z.of_nat c)%Z with (Z.of_nat ((i + 1) * c)) by lia.
    rewrite slice_seq. fold n. apply make_ok; [rewrite ndim_take; assumption|]. apply out_dims_ok.
  - rewrite map_map. unfold ch. simpl data.
    rewrite <- (map_map (fun i => seq (Nat.min (i * c) n) (Nat.min ((i + 1) * c) n - Nat.min (i * c) n)) (fun l => take d l k)).
    set (ls := map (fun i => seq (Nat.min (i * c) n) (Nat.min ((i + 1) * c) n - Nat.min (i * c) n)) (seq 0 m)).
    assert (Hls : concat ls = seq 0 n).
    { unfold ls. rewrite chunk_seqs by assumption. replace (Nat.min (0 * c) n) with 0 by lia.
      f_equal. unfold m. pose proof (Nat.div_mod (n - 1) c). pose proof (Nat.mod_upper_bound (n - 1) c). nia. }
    destruct ls as [|l0 ls'] eqn:Hl; [destruct n; [lia|discriminate]|].
    destruct (concatenate_takes d k l0 ls' Hkn) as [r [Hr Hs]]. exists r. split; [assumption|].
    eapply same_trans; [eassumption|]. rewrite Hls. apply take_all.
  - rewrite map_length, seq_length. discriminate.
  - intros i a Ha. rewrite map_length, seq_length.
    assert (Hi : i < m). { assert (Hi : i < length (map ch (seq 0 m))) by (apply nth_error_Some; congruence). rewrite map_length, seq_length in Hi. assumption. }
    assert (Ea : a = ch i).
    { rewrite (map_nth_error ch i (seq 0 m) (d := i)) in Ha; [congruence|].
      rewrite nth_error_nth' with (d := 0) by (rewrite seq_length; assumption). rewrite seq_nth by assumption. reflexivity. }
    subst a. clear Ha. simpl data. simpl dims. simpl axes.
    assert (Hmc : i * c < n).
    { unfold m in Hi. pose proof (Nat.div_mod (n - 1) c). nia. }
    assert (Hsz : size_at k (take d (seq (Nat.min (i * c) n) (Nat.min ((i + 1) * c) n - Nat.min (i * c) n)) k) = Nat.min ((i + 1) * c) n - i * c).
    { rewrite size_take by assumption. rewrite Nat.eqb_refl, seq_length. rewrite (Nat.min_l (i * c)) by lia. reflexivity. }
    rewrite Hsz. split; [nia|]. split.
    { intros Hm. unfold m in Hm. assert ((i + 1) * c <= n); [|nia]. pose proof (Nat.div_mod (n - 1) c). nia. }
    split.
    { intros j idx Hidx Hj. split; [lia|]. rewrite (Nat.min_l (i * c)) by lia.
      unfold take. simpl. pose proof (in_range_length _ _ Hidx) as Hlen. unfold ndim in Hkn.
      rewrite nth_upd_eq by lia. rewrite upd_upd. rewrite seq_nth by lia. reflexivity. }
    split.
    { unfold od. rewrite nth_error_nth' with (d := time_) by (rewrite length_upd, map_length, seq_length; assumption).
      rewrite nth_upd_eq by (rewrite map_length, seq_length; assumption). reflexivity. }
    split; [assumption|]. split; [apply out_dims_ok|]. split; [reflexivity|].
    exists (1 / fs)%Q, (inject_Z (Z.of_nat i) * inject_Z (Z.of_nat c) / fs + tzero)%Q. split.
    + simpl. destruct (dec time_ time_); [reflexivity|contradiction].
    + intros j. unfold lin_value. rewrite Nat2Z.inj_add, Nat2Z.inj_mul, inject_Z_plus, inject_Z_mult. field. assumption.
Qed.

(** The chunks can be joined by AxisArray.concatenate, which gives the data with the times of the
    samples. *)
Theorem C52_chunks_join_again (d : arr A) (c : nat) (axis_ : Z) (fs tzero : Q) (k : nat) cs :
  norm_axis (ndim d) axis_ = Some k -> 0 < c -> ~ (fs == 0)%Q -> 0 < size_at k d ->
  chunker d (Z.of_nat c) axis_ fs tzero = Some cs ->
  exists r, concat_aa key0 cs time_ None = Some r /\ same (data r) d /\ key r = key0 /\ attrs r = attrs0 /\
    nth_error (dims r) k = Some time_ /\
    exists g o, get time_ (axes r) = Some (Linear sec g o) /\
      forall j, (lin_value g o (Z.of_nat j) == tzero + inject_Z (Z.of_nat j) / fs)%Q.
Proof.
  intros Hk Hc Hfs Hn Hcs. destruct (norm_axis_Some _ _ _ Hk) as [Hkn _].
  destruct (C52_chunks d c axis_ fs tzero k Hk Hc Hfs Hn) as [cs' [Hcs' [[r [Hr Hs]] [Hne Hall]]]].
  assert (cs' = cs) by congruence. subst cs'. clear Hcs'.
  assert (Hfix : forall a, In a cs -> dims a = upd k time_ (map dname (seq 0 (ndim d))) /\ key a = key0 /\ attrs a = attrs0).
  { unfold chunker, array_chunker in Hcs. rewrite Hk in Hcs. destruct (Z.eqb _ 0); [discriminate|].
    destruct (Qeq_bool fs 0); [discriminate|]. cbv zeta in Hcs. destruct (_ <=? 0)%Z; [discriminate|].
    apply sequence_Some in Hcs. intros a Ha. apply (in_map Some) in Ha. rewrite <- Hcs in Ha. apply in_map_iff in Ha.
    destruct Ha as [i [Hi _]]. destruct (slice_along_axis _ _ _); [|discriminate]. apply make_Some in Hi. destruct Hi as [_ [_ ->]]. simpl. auto. }
  destruct cs as [|a0 rest]; [contradiction Hne; reflexivity|].
  assert (Hin0 : In a0 (a0 :: rest)) by (left; reflexivity). destruct (Hfix a0 Hin0) as [Hd0 [Hk0 Ht0]].
  destruct (Hall 0 a0 eq_refl) as [_ [_ [_ [Hd [Hlen [Hnd [_ [g [o [Hg Hv]]]]]]]]]].
  exists (AA r (dims a0) (axes a0) (attrs a0) (key a0)).
  unfold concat_aa.
  replace (forallb (fun a => eqd (dims a) (dims a0)) rest) with true.
  2:{ symmetry. apply forallb_forall. intros a Ha. apply eqd_true. destruct (Hfix a (or_intror Ha)) as [-> _]. auto. }
  replace (forallb (fun a => eqd (key a) (key a0)) (a0 :: rest)) with true.
  2:{ symmetry. apply forallb_forall. intros a Ha. apply eqd_true. destruct (Hfix a Ha) as [_ [-> _]]. auto. }
  unfold concat_axis. replace (forallb _ (a0 :: rest)) with false.
  2:{ symmetry. cbn [forallb]. rewrite Hg. reflexivity. }
  rewrite (index_of_nth (dims a0) k time_ Hnd Hd). rewrite Hr.
  split; [apply make_ok; [|assumption]|].
  { destruct Hs as [Hsh _]. unfold ndim. rewrite Hsh. exact Hlen. }
  simpl. split; [assumption|]. split; [assumption|]. split; [assumption|]. split; [assumption|].
  exists g, o. split; [assumption|]. intros j. rewrite (Hv j). reflexivity.
Qed.

(** Finding: an array without samples is not cut into no chunks; the generator raises. *)
Theorem C52_no_samples_refuted (f : list nat -> A) (fs tzero : Q) (c : nat) :
  chunker (Arr [0; 3] f) (Z.of_nat c) 0 fs tzero = None.
Proof.
  unfold chunker, array_chunker. change (norm_axis _ 0) with (Some 0). cbn match.
  destruct (Z.eqb_spec (Z.of_nat c) 0); [reflexivity|]. destruct (Qeq_bool fs 0); [reflexivity|].
  change (size_at 0 (Arr [0; 3] f)) with 0. change (- Z.of_nat 0)%Z with 0%Z. rewrite Zdiv_0_l. reflexivity.
Qed.
End Chunks.

Print Assumptions C52_chunks.
Print Assumptions C52_chunks_join_again.
Print Assumptions C52_no_samples_refuted.

(** Two channels of seven samples, in chunks of three, along the last axis. *)
Example C52_case :
  option_map (map (fun a => (shape (data a), map (fun j => elt (data a) [1; j]) (seq 0 (size_at 1 (data a))), axes a)))
    (chunker (K := nat) (V := nat) 0 (None : option nat) Some 7 tt (Arr [2; 7] (fun idx => 10 * nth 0 idx 0 + nth 1 idx 0)) 3 (-1) (100 # 1) 2)
  = Some [([2; 3], [10; 11; 12], [(None, Linear 7 (1 # 100) (200 # 100))]);
          ([2; 3], [13; 14; 15], [(None, Linear 7 (1 # 100) (203 # 100))]);
          ([2; 1], [16], [(None, Linear 7 (1 # 100) (206 # 100))])].
Proof. vm_compute. reflexivity. Qed.
