(** Lemmas about MarshalModel. *)
From Coq Require Import List NArith Arith Bool Lia.
From Coq Require Import Strings.Byte.
From Verif Require Import CodecModel CodecProofs MarshalModel.
Import ListNotations.

Lemma skipn_skipn {A} n m (l : list A) : skipn n (skipn m l) = skipn (n + m) l.
Proof.
  revert l; induction m as [|m IH]; intros l; [now rewrite Nat.add_0_r|].
  destruct l as [|x l]; [now rewrite !skipn_nil|].
  rewrite Nat.add_succ_r. cbn [skipn]. apply IH.
Qed.

Lemma slice_app_exact (a d c : bytes) n m :
  length a = n -> m = n + length d -> slice n m (a ++ d ++ c) = d.
Proof.
  intros <- ->. unfold slice.
  replace (length a + length d - length a) with (length d) by lia.
  rewrite skipn_app, skipn_all, Nat.sub_diag. cbn [skipn app].
  rewrite firstn_app, Nat.sub_diag, firstn_all. cbn [firstn]. apply app_nil_r.
Qed.

Lemma slice_length a b (mem : bytes) : a <= b -> b <= length mem -> length (slice a b mem) = b - a.
Proof. intros H1 H2. unfold slice. rewrite firstn_length, skipn_length. lia. Qed.

Lemma slice_le a b (mem : bytes) : length (slice a b mem) <= b - a.
Proof. unfold slice. rewrite firstn_length. lia. Qed.

Lemma split3 (mem : bytes) a b : a <= b -> b <= length mem ->
  mem = firstn a mem ++ slice a b mem ++ skipn b mem.
Proof.
  intros H1 H2. rewrite <- (firstn_skipn a mem) at 1. f_equal. unfold slice.
  rewrite <- (firstn_skipn (b - a) (skipn a mem)) at 1. f_equal.
  rewrite skipn_skipn. f_equal. lia.
Qed.

Lemma assign_ok a b data mem : b = a + length data -> b <= length mem ->
  assign a b data mem = Ok (firstn a mem ++ data ++ skipn b mem).
Proof.
  intros -> H. unfold assign. rewrite slice_length by lia.
  replace (a + length data - a) with (length data) by lia. now rewrite Nat.eqb_refl.
Qed.

(** The only way a slice assignment of matching width fails is that the memory is too short. *)
Lemma assign_short a data mem : length data > 0 -> length mem < a + length data ->
  assign a (a + length data) data mem = Err ValueError.
Proof.
  intros H0 H. unfold assign. destruct (Nat.eqb_spec (length (slice a (a + length data) mem)) (length data)) as [E|]; [|reflexivity].
  exfalso. unfold slice in E. rewrite firstn_length, skipn_length in E. lia.
Qed.

Section P.
  Context {Obj : Type} (pickle_dumps : Obj -> bytes * list bytes).

  Notation dump := (dump pickle_dumps).
  Notation serialize := (serialize pickle_dumps).
  Notation to_mem := (to_mem pickle_dumps).

  Lemma sum_len_concat bs : sum_len bs = length (concat bs).
  Proof.
    unfold sum_len. induction bs as [|b bs IH]; cbn [fold_right concat length]; [reflexivity|].
    now rewrite app_length, IH.
  Qed.

  Lemma lens_bytes_length bs lb : lens_bytes bs = Some lb -> length lb = length bs * 8.
  Proof.
    revert lb; induction bs as [|b bs IH]; intros lb H; cbn [lens_bytes] in H.
    - now injection H as <-.
    - destruct (uint64_to_bytes _) as [x|] eqn:E; [|discriminate].
      destruct (lens_bytes bs) as [y|]; [|discriminate].
      assert (lb = x ++ y) by congruence. subst lb.
      rewrite app_length, (IH y eq_refl). apply uint64_roundtrip in E. cbn [length]. lia.
  Qed.

  Lemma serialize_inv i o t h bs : serialize i o = Ok (t, h, bs) ->
    exists nb lb ib, bs = dump o /\ uint64_to_bytes (N.of_nat (length bs)) = Some nb /\
      lens_bytes bs = Some lb /\ uint64_to_bytes i = Some ib /\
      h = PREAMBLE ++ ib ++ nb ++ lb /\ t = length h + length (concat bs).
  Proof.
    unfold MarshalModel.serialize.
    destruct (uint64_to_bytes (N.of_nat (length (dump o)))) as [nb|] eqn:En; [|discriminate].
    destruct (lens_bytes (dump o)) as [lb|] eqn:El; [|discriminate].
    destruct (uint64_to_bytes i) as [ib|] eqn:Ei; [|discriminate].
    intros H. exists nb, lb, ib.
    assert (bs = dump o) by congruence. subst bs.
    assert (h = PREAMBLE ++ ib ++ nb ++ lb) by congruence. subst h.
    assert (t = length (PREAMBLE ++ ib ++ nb ++ lb) + sum_len (dump o)) by congruence. subst t.
    rewrite sum_len_concat. auto 10.
  Qed.

  Lemma serialize_header_len i o t h bs : serialize i o = Ok (t, h, bs) ->
    length h = 18 + 8 * length bs /\ t = length h + length (concat bs) /\ bs <> [].
  Proof.
    intros H. apply serialize_inv in H as (nb & lb & ib & Hbs & En & El & Ei & Hh & Ht).
    split; [|split; [exact Ht|subst bs; discriminate]].
    subst h. rewrite !app_length. apply lens_bytes_length in El.
    apply uint64_roundtrip in En. apply uint64_roundtrip in Ei. cbn [length PREAMBLE]. lia.
  Qed.

  Lemma serialize_total i o :
    (i < 2 ^ 64)%N -> (N.of_nat (length (dump o)) < 2 ^ 64)%N ->
    (forall b, In b (dump o) -> (N.of_nat (length b) < 2 ^ 64)%N) ->
    exists t h bs, serialize i o = Ok (t, h, bs).
  Proof.
    intros Hi Hn Hb. unfold MarshalModel.serialize.
    apply uint64_defined in Hi as [ib ->]. apply uint64_defined in Hn as [nb ->].
    assert (G : forall bs, (forall b, In b bs -> (N.of_nat (length b) < 2 ^ 64)%N) -> exists lb, lens_bytes bs = Some lb).
    { induction bs as [|b bs IH]; intros H; cbn [lens_bytes]; [eauto|].
      destruct (proj1 (uint64_defined _) (H b (or_introl eq_refl))) as [x ->].
      destruct IH as [y ->]; [intros; apply H; now right|eauto]. }
    destruct (G _ Hb) as [lb ->]. eauto.
  Qed.

  (** What is written is header ++ buffers at the front of the memory, the rest is untouched. *)
  Lemma write_bufs_ok bs : forall sidx mem pre rest,
    length pre = sidx -> mem = pre ++ rest -> length (concat bs) <= length rest ->
    write_bufs sidx bs mem = (pre ++ concat bs ++ skipn (length (concat bs)) rest, None).
  Proof.
    induction bs as [|b bs IH]; intros sidx mem pre rest Hp -> Hl; cbn [write_bufs concat].
    - cbn [length skipn app]. reflexivity.
    - cbn [concat] in Hl. rewrite app_length in Hl.
      rewrite assign_ok by (rewrite ?app_length; lia).
      rewrite firstn_app, firstn_all2 by lia. replace (sidx - length pre) with 0 by lia.
      cbn [firstn]. rewrite app_nil_r.
      rewrite skipn_app, skipn_all2 by lia. cbn [app].
      replace (sidx + length b - length pre) with (length b) by lia.
      rewrite (IH (sidx + length b) _ (pre ++ b) (skipn (length b) rest)).
      + f_equal. rewrite <- !app_assoc. do 3 f_equal. rewrite skipn_skipn, app_length. f_equal. lia.
      + rewrite app_length. lia.
      + now rewrite app_assoc.
      + rewrite skipn_length. lia.
  Qed.

  Lemma write_mem_ok mem h bs : length h + length (concat bs) <= length mem ->
    write_mem mem h bs = (h ++ concat bs ++ skipn (length h + length (concat bs)) mem, None).
  Proof.
    intros Hl. unfold write_mem. rewrite assign_ok by lia. cbn [firstn app].
    rewrite (write_bufs_ok bs (length h) _ h (skipn (length h) mem));
      [|reflexivity|reflexivity|rewrite skipn_length; lia].
    do 3 f_equal. rewrite skipn_skipn. f_equal. lia.
  Qed.

  Lemma write_bufs_short bs : forall sidx mem,
    sidx <= length mem -> length mem < sidx + length (concat bs) ->
    exists mem', write_bufs sidx bs mem = (mem', Some ValueError).
  Proof.
    induction bs as [|b bs IH]; intros sidx mem H1 H2; cbn [concat length] in H2; [lia|].
    cbn [write_bufs]. rewrite app_length in H2.
    destruct (Nat.le_gt_cases (sidx + length b) (length mem)) as [Hle|Hgt].
    - rewrite assign_ok by lia. apply IH.
      + rewrite !app_length, firstn_length, skipn_length. lia.
      + rewrite !app_length, firstn_length, skipn_length. lia.
    - rewrite assign_short by lia. eauto.
  Qed.

  (** Reading back. *)
  Lemma read_sizes_ok bs : forall lb pre rest,
    lens_bytes bs = Some lb ->
    read_sizes (length bs) (length pre) (pre ++ lb ++ rest) = map (@length byte) bs.
  Proof.
    induction bs as [|b bs IH]; intros lb pre rest H; cbn [lens_bytes] in H; [reflexivity|].
    destruct (uint64_to_bytes (N.of_nat (length b))) as [x|] eqn:E; [|discriminate].
    destruct (lens_bytes bs) as [y|] eqn:Ey; [|discriminate].
    assert (lb = x ++ y) by congruence. subst lb. clear H.
    apply uint64_roundtrip in E as [Hx Hv].
    cbn [read_sizes length map]. f_equal.
    - rewrite <- app_assoc, (slice_app_exact pre x) by (unfold UINT64_SIZE; lia).
      rewrite Hv. apply Nat2N.id.
    - replace (length pre + UINT64_SIZE) with (length (pre ++ x)) by (rewrite app_length; unfold UINT64_SIZE; lia).
      replace (pre ++ (x ++ y) ++ rest) with ((pre ++ x) ++ y ++ rest) by now rewrite <- !app_assoc.
      now apply IH.
  Qed.

  Lemma read_bufs_ok bs : forall pre rest,
    read_bufs (map (@length byte) bs) (length pre) (pre ++ concat bs ++ rest) = bs.
  Proof.
    induction bs as [|b bs IH]; intros pre rest; cbn [map read_bufs concat]; [reflexivity|].
    f_equal.
    - rewrite <- app_assoc. now apply slice_app_exact.
    - replace (length pre + length b) with (length (pre ++ b)) by (rewrite app_length; lia).
      replace (pre ++ (b ++ concat bs) ++ rest) with ((pre ++ b) ++ concat bs ++ rest) by now rewrite <- !app_assoc.
      apply IH.
  Qed.

  Lemma initialized_app rest : initialized (PREAMBLE ++ rest) = true.
  Proof.
    unfold initialized, slice. cbn [PREAMBLE PREAMBLE_LEN Nat.sub skipn app firstn].
    destruct (list_eq_dec _ _ _) as [_|n]; [reflexivity|exfalso; apply n; reflexivity].
  Qed.

  (** A memory that currently holds message [(i, o)]: the message's serialisation is at its front. *)
  Definition holds (mem : bytes) (i : N) (o : Obj) : Prop :=
    exists t h bs rest, serialize i o = Ok (t, h, bs) /\ mem = h ++ concat bs ++ rest.

  Lemma serialize_err i o e : serialize i o = Err e -> e = OverflowError.
  Proof.
    unfold MarshalModel.serialize. generalize (uint64_to_bytes (N.of_nat (length (dump o)))) (lens_bytes (dump o)) (uint64_to_bytes i).
    intros [a|] [b|] [c|]; congruence.
  Qed.

  Lemma to_mem_cases i o mem :
    match to_mem i o mem with
    | (mem', None) =>
        exists t h bs, serialize i o = Ok (t, h, bs) /\ t < length mem /\ mem' = h ++ concat bs ++ skipn t mem
    | (mem', Some (UndersizedMemory r)) =>
        mem' = mem /\ length mem <= r /\ exists h bs, serialize i o = Ok (r, h, bs)
    | (mem', Some OverflowError) => mem' = mem /\ serialize i o = Err OverflowError
    | (_, Some _) => False
    end.
  Proof.
    unfold MarshalModel.to_mem. destruct (serialize i o) as [[[t h] bs]|e] eqn:E.
    - destruct (serialize_header_len _ _ _ _ _ E) as (_ & Ht & _).
      destruct (Nat.leb_spec (length mem) t) as [Hl|Hl]; [eauto|].
      rewrite write_mem_ok by lia. exists t, h, bs. split; [reflexivity|]. split; [lia|]. now rewrite Ht.
    - rewrite (serialize_err i o e E). auto.
  Qed.

  Lemma to_mem_holds i o mem mem' : to_mem i o mem = (mem', None) -> holds mem' i o.
  Proof.
    intros E. pose proof (to_mem_cases i o mem) as C. rewrite E in C.
    destruct C as (t & h & bs & Hs & Hl & ->). exists t, h, bs, (skipn t mem). auto.
  Qed.

  Lemma to_mem_fits i o mem t h bs : serialize i o = Ok (t, h, bs) -> t < length mem ->
    exists mem', to_mem i o mem = (mem', None).
  Proof.
    intros E Hl. unfold MarshalModel.to_mem. rewrite E.
    destruct (Nat.leb_spec (length mem) t) as [?|_]; [lia|].
    destruct (serialize_header_len _ _ _ _ _ E) as (_ & Ht & _).
    rewrite write_mem_ok by lia. eauto.
  Qed.

  Lemma to_mem_error_unchanged i o mem mem' e : to_mem i o mem = (mem', Some e) ->
    mem' = mem /\ (e = OverflowError \/ exists r, e = UndersizedMemory r /\ length mem <= r).
  Proof.
    intros E. pose proof (to_mem_cases i o mem) as C. rewrite E in C.
    destruct e as [r| | | |]; try contradiction.
    - destruct C as (-> & H & _). split; [reflexivity|]. right; eauto.
    - destruct C as (-> & _). auto.
  Qed.

  Lemma holds_length mem i o t h bs : holds mem i o -> serialize i o = Ok (t, h, bs) -> t <= length mem.
  Proof.
    intros (t' & h' & bs' & rest & Hs & ->) Hs'. rewrite Hs in Hs'. injection Hs' as <- <- <-.
    destruct (serialize_header_len _ _ _ _ _ Hs) as (_ & Ht & _). rewrite !app_length. lia.
  Qed.

  Context (pickle_loads : bytes -> list bytes -> option Obj).
  Notation load := (load pickle_loads).
  Notation obj_from_mem := (obj_from_mem pickle_loads).
  Notation copy_obj := (copy_obj pickle_dumps pickle_loads).

  Lemma uninitialized_read mem : firstn 2 mem <> PREAMBLE ->
    msg_id_of mem = Err UninitializedMemory /\ obj_from_mem mem = Err UninitializedMemory.
  Proof.
    intros H. unfold msg_id_of, MarshalModel.obj_from_mem.
    assert (E : initialized mem = false).
    { unfold initialized, slice. cbn [PREAMBLE_LEN Nat.sub skipn].
      destruct (list_eq_dec _ _ _); congruence. }
    rewrite E. auto.
  Qed.


  Hypothesis pickle_roundtrip :
    forall o, pickle_loads (fst (pickle_dumps o)) (snd (pickle_dumps o)) = Some o.

  Lemma read_back i o t h bs rest : serialize i o = Ok (t, h, bs) ->
    msg_id_of (h ++ concat bs ++ rest) = Ok i /\ obj_from_mem (h ++ concat bs ++ rest) = Ok o.
  Proof.
    intros H. pose proof (serialize_header_len _ _ _ _ _ H) as (_ & _ & Hne).
    apply serialize_inv in H as (nb & lb & ib & Hbs & En & El & Ei & Hh & Ht).
    pose proof (uint64_roundtrip _ _ En) as [Ln Vn]. pose proof (uint64_roundtrip _ _ Ei) as [Li Vi].
    pose proof (lens_bytes_length _ _ El) as Ll.
    assert (Hmem : h ++ concat bs ++ rest = PREAMBLE ++ ib ++ nb ++ lb ++ concat bs ++ rest)
      by (subst h; now rewrite <- !app_assoc).
    rewrite Hmem. unfold msg_id_of, MarshalModel.obj_from_mem. rewrite initialized_app.
    assert (S1 : slice PREAMBLE_LEN (PREAMBLE_LEN + UINT64_SIZE) (PREAMBLE ++ ib ++ nb ++ lb ++ concat bs ++ rest) = ib)
      by (apply slice_app_exact; [reflexivity|unfold UINT64_SIZE; lia]).
    assert (S2 : slice (PREAMBLE_LEN + UINT64_SIZE) (PREAMBLE_LEN + UINT64_SIZE + UINT64_SIZE)
                   (PREAMBLE ++ ib ++ nb ++ lb ++ concat bs ++ rest) = nb).
    { rewrite (app_assoc PREAMBLE). apply slice_app_exact; [rewrite app_length, Li; reflexivity|unfold UINT64_SIZE; lia]. }
    rewrite S1, S2, Vi, Vn. split; [reflexivity|].
    destruct (N.eqb_spec (N.of_nat (length bs)) 0) as [E0|_].
    { exfalso. apply Hne. destruct bs; [reflexivity|cbn [length] in E0; lia]. }
    rewrite Nat2N.id.
    replace (PREAMBLE ++ ib ++ nb ++ lb ++ concat bs ++ rest) with ((PREAMBLE ++ ib ++ nb) ++ lb ++ concat bs ++ rest)
      by now rewrite <- !app_assoc.
    assert (Lpre : PREAMBLE_LEN + UINT64_SIZE + UINT64_SIZE = length (PREAMBLE ++ ib ++ nb))
      by (rewrite !app_length, Li, Ln; reflexivity).
    rewrite Lpre, (read_sizes_ok bs lb _ _ El).
    replace (length (PREAMBLE ++ ib ++ nb) + length bs * UINT64_SIZE) with (length ((PREAMBLE ++ ib ++ nb) ++ lb))
      by (rewrite (app_length (PREAMBLE ++ ib ++ nb)), Ll; reflexivity).
    replace ((PREAMBLE ++ ib ++ nb) ++ lb ++ concat bs ++ rest) with (((PREAMBLE ++ ib ++ nb) ++ lb) ++ concat bs ++ rest)
      by now rewrite <- !app_assoc.
    rewrite read_bufs_ok, Hbs. cbn [MarshalModel.load MarshalModel.dump]. now rewrite pickle_roundtrip.
  Qed.

  Lemma holds_read mem i o : holds mem i o -> msg_id_of mem = Ok i /\ obj_from_mem mem = Ok o.
  Proof. intros (t & h & bs & rest & H & ->). eapply read_back; eauto. Qed.

  Lemma to_mem_roundtrip i o mem mem' : to_mem i o mem = (mem', None) ->
    msg_id_of mem' = Ok i /\ obj_from_mem mem' = Ok o /\ length mem' = length mem.
  Proof.
    intros E. pose proof (to_mem_cases i o mem) as C. rewrite E in C.
    destruct C as (t & h & bs & Hs & Hl & ->).
    destruct (read_back i o t h bs (skipn t mem) Hs) as [H1 H2].
    split; [exact H1|split; [exact H2|]].
    destruct (serialize_header_len _ _ _ _ _ Hs) as (_ & Ht & _).
    rewrite !app_length, skipn_length. lia.
  Qed.

  Lemma copy_obj_holds from to i o : holds from i o -> length from < length to ->
    exists to', copy_obj from to = (to', None) /\ holds to' i o /\ length to' = length to.
  Proof.
    intros Hh Hl. pose proof (holds_read _ _ _ Hh) as [H1 H2].
    unfold MarshalModel.copy_obj. rewrite H1, H2.
    destruct Hh as (t & h & bs & rest & Hs & Hm).
    assert (Ht : t < length to).
    { destruct (serialize_header_len _ _ _ _ _ Hs) as (_ & Ht & _). subst from. rewrite !app_length in Hl. lia. }
    destruct (to_mem_fits _ _ _ _ _ _ Hs Ht) as [to' E]. exists to'. rewrite E. split; [reflexivity|].
    split; [eapply to_mem_holds; eauto|]. eapply to_mem_roundtrip; eauto.
  Qed.
End P.
