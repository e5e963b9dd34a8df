(** Lemmas about CodecModel. *)
From Coq Require Import List NArith ZArith Arith Bool Lia ZifyBool ZifyNat ZifyN.
From Coq Require Import Strings.Byte.
From Verif Require Import CodecModel.
Import ListNotations.
Ltac Zify.zify_post_hook ::= Z.div_mod_to_equations.

Lemma to_N_lt (b : byte) : (Byte.to_N b < 256)%N.
Proof. pose proof (Byte.to_N_bounded b); lia. Qed.

Lemma to_N_byte_of_N n : Byte.to_N (byte_of_N n) = (n mod 256)%N.
Proof.
  unfold byte_of_N.
  destruct (Byte.of_N (n mod 256)) as [b|] eqn:E.
  - apply Byte.to_of_N in E. exact E.
  - apply Byte.of_N_None_iff in E.
    pose proof (N.mod_lt n 256). lia.
Qed.

Lemma byte_of_N_to_N b : byte_of_N (Byte.to_N b) = b.
Proof.
  unfold byte_of_N. rewrite N.mod_small by (pose proof (to_N_lt b); lia).
  now rewrite Byte.of_to_N.
Qed.

Lemma byte_of_N_mod n m : (n mod 256 = m mod 256)%N -> byte_of_N n = byte_of_N m.
Proof. unfold byte_of_N. now intros ->. Qed.

Lemma byte_of_N_cons_step b n : byte_of_N (Byte.to_N b + 256 * n) = b.
Proof.
  rewrite <- (byte_of_N_to_N b) at 2. apply byte_of_N_mod.
  rewrite (N.mul_comm 256), N.mod_add by lia. reflexivity.
Qed.

Lemma le_bytes_length k n : length (le_bytes k n) = k.
Proof. revert n; induction k as [|k IH]; intros n; cbn [le_bytes length]; [reflexivity|now rewrite IH]. Qed.

Lemma bytes_to_uint_le_bytes k n :
  bytes_to_uint (le_bytes k n) = (n mod 256 ^ N.of_nat k)%N.
Proof.
  revert n; induction k as [|k IH]; intros n.
  - cbn [le_bytes bytes_to_uint]. change (256 ^ N.of_nat 0)%N with 1%N. now rewrite N.mod_1_r.
  - cbn [le_bytes bytes_to_uint]. rewrite IH, to_N_byte_of_N.
    rewrite Nat2N.inj_succ, N.pow_succ_r'.
    rewrite N.mod_mul_r by (try lia; apply N.pow_nonzero; lia).
    reflexivity.
Qed.

Lemma le_bytes_bytes_to_uint b : le_bytes (length b) (bytes_to_uint b) = b.
Proof.
  induction b as [|x b IH]; [reflexivity|].
  cbn [length le_bytes bytes_to_uint]. rewrite byte_of_N_cons_step.
  f_equal.
  assert (E : ((Byte.to_N x + 256 * bytes_to_uint b) / 256 = bytes_to_uint b)%N).
  { rewrite (N.mul_comm 256), N.div_add by discriminate.
    rewrite (N.div_small (Byte.to_N x)) by apply to_N_lt. reflexivity. }
  rewrite E. exact IH.
Qed.

Lemma bytes_to_uint_bound b : (bytes_to_uint b < 256 ^ N.of_nat (length b))%N.
Proof.
  induction b as [|x b IH]; [cbn; lia|].
  cbn [length bytes_to_uint]. rewrite Nat2N.inj_succ, N.pow_succ_r'.
  pose proof (to_N_lt x). lia.
Qed.

Lemma pow_256_8 : (256 ^ N.of_nat UINT64_SIZE = 2 ^ 64)%N.
Proof. vm_compute. reflexivity. Qed.

Lemma uint64_roundtrip n b : uint64_to_bytes n = Some b -> length b = 8 /\ bytes_to_uint b = n.
Proof.
  unfold uint64_to_bytes. destruct (N.ltb_spec n (2 ^ 64)) as [H|H]; [|discriminate].
  intros E. assert (Hb : b = le_bytes UINT64_SIZE n) by congruence. clear E. subst b.
  split; [apply (le_bytes_length UINT64_SIZE)|].
  rewrite bytes_to_uint_le_bytes, pow_256_8. now apply N.mod_small.
Qed.

Lemma uint64_some n : (n < 2 ^ 64)%N -> exists b, uint64_to_bytes n = Some b.
Proof. intros H. unfold uint64_to_bytes. destruct (N.ltb_spec n (2^64)); [eauto|lia]. Qed.

Lemma uint64_none n : (2 ^ 64 <= n)%N -> uint64_to_bytes n = None.
Proof. intros H. unfold uint64_to_bytes. destruct (N.ltb_spec n (2^64)); [lia|reflexivity]. Qed.

Lemma uint64_surj b : length b = 8 -> uint64_to_bytes (bytes_to_uint b) = Some b.
Proof.
  intros H. unfold uint64_to_bytes.
  pose proof (bytes_to_uint_bound b) as Hb. rewrite H in Hb.
  change (N.of_nat 8) with (N.of_nat UINT64_SIZE) in Hb. rewrite pow_256_8 in Hb.
  destruct (N.ltb_spec (bytes_to_uint b) (2 ^ 64)) as [_|Hc]; [|lia].
  f_equal. rewrite <- (le_bytes_bytes_to_uint b) at 2. rewrite H. reflexivity.
Qed.

(** ** UTF-8 *)

Lemma utf8_char_len c : length (utf8_char c) >= 1.
Proof. unfold utf8_char. repeat destruct (_ <? _)%N; cbn [length]; lia. Qed.

Lemma cont_mod n : cont (byte_of_N (0x80 + n mod 0x40)) = Some (n mod 0x40)%N.
Proof.
  unfold cont. rewrite to_N_byte_of_N.
  assert (H : ((0x80 + n mod 0x40) mod 256 = 0x80 + n mod 0x40)%N).
  { apply N.mod_small. pose proof (N.mod_lt n 0x40). lia. }
  rewrite H. pose proof (N.mod_lt n 0x40 ltac:(lia)) as Hl.
  destruct (N.leb_spec 0x80 (0x80 + n mod 0x40)); [|lia].
  destruct (N.ltb_spec (0x80 + n mod 0x40) 0xC0); [|lia].
  cbn [andb]. f_equal. lia.
Qed.

Lemma div_div_mod c :
  (c / 0x1000 * 0x1000 + (c / 0x40) mod 0x40 * 0x40 + c mod 0x40 = c)%N.
Proof.
  pose proof (N.div_mod c 0x40 ltac:(lia)) as H1.
  pose proof (N.div_mod (c / 0x40) 0x40 ltac:(lia)) as H2.
  rewrite N.div_div in H2 by lia. change (0x40 * 0x40)%N with 0x1000%N in H2. lia.
Qed.

Lemma div_div_div_mod c :
  (c / 0x40000 * 0x40000 + (c / 0x1000) mod 0x40 * 0x1000 + (c / 0x40) mod 0x40 * 0x40 + c mod 0x40 = c)%N.
Proof.
  pose proof (div_div_mod c) as H1.
  pose proof (N.div_mod (c / 0x1000) 0x40 ltac:(lia)) as H2.
  rewrite N.div_div in H2 by lia. change (0x1000 * 0x40)%N with 0x40000%N in H2. lia.
Qed.

Lemma utf8_decode_char c rest :
  scalar c = true ->
  utf8_decode (utf8_char c ++ rest) =
  match utf8_decode rest with Some s => Some (c :: s) | None => None end.
Proof.
  intros Hs.
  assert (Hc : (c < 0x110000)%N).
  { unfold scalar in Hs. destruct (N.ltb_spec c 0xD800); [lia|].
    destruct (N.ltb_spec 0xDFFF c); [|discriminate].
    destruct (N.ltb_spec c 0x110000); [lia|discriminate]. }
  unfold utf8_char.
  destruct (N.ltb_spec c 0x80) as [H1|H1].
  { cbn [app utf8_decode]. rewrite to_N_byte_of_N. rewrite N.mod_small by lia.
    destruct (N.ltb_spec c 0x80); [reflexivity|lia]. }
  destruct (N.ltb_spec c 0x800) as [H2|H2].
  { cbn [app utf8_decode]. rewrite to_N_byte_of_N.
    assert (Hd : (c / 0x40 < 0x20)%N) by (apply N.div_lt_upper_bound; lia).
    assert (Hd2 : (2 <= c / 0x40)%N) by (apply N.div_le_lower_bound; lia).
    rewrite N.mod_small by lia.
    rewrite cont_mod.
    destruct (N.ltb_spec (0xC0 + c / 0x40) 0x80); [lia|].
    destruct (N.ltb_spec (0xC0 + c / 0x40) 0xC0); [lia|].
    destruct (N.ltb_spec (0xC0 + c / 0x40) 0xE0); [|lia].
    assert (E : ((0xC0 + c / 0x40 - 0xC0) * 0x40 + c mod 0x40 = c)%N).
    { pose proof (N.div_mod c 0x40 ltac:(lia)). lia. }
    cbv zeta. rewrite E.
    destruct (N.ltb_spec c 0x80); [lia|reflexivity]. }
  destruct (N.ltb_spec c 0x10000) as [H3|H3].
  { cbn [app utf8_decode]. rewrite to_N_byte_of_N.
    assert (Hd : (c / 0x1000 < 0x10)%N) by (apply N.div_lt_upper_bound; lia).
    rewrite N.mod_small by lia.
    rewrite !cont_mod.
    destruct (N.ltb_spec (0xE0 + c / 0x1000) 0x80); [lia|].
    destruct (N.ltb_spec (0xE0 + c / 0x1000) 0xC0); [lia|].
    destruct (N.ltb_spec (0xE0 + c / 0x1000) 0xE0); [lia|].
    destruct (N.ltb_spec (0xE0 + c / 0x1000) 0xF0); [|lia].
    assert (E : ((0xE0 + c / 0x1000 - 0xE0) * 0x1000 + (c / 0x40) mod 0x40 * 0x40 + c mod 0x40 = c)%N).
    { pose proof (div_div_mod c). lia. }
    cbv zeta. rewrite E.
    destruct (N.ltb_spec c 0x800); [lia|]. rewrite Hs. cbn [negb]. reflexivity. }
  { cbn [app utf8_decode]. rewrite to_N_byte_of_N.
    assert (Hd : (c / 0x40000 < 0x5)%N) by (apply N.div_lt_upper_bound; lia).
    rewrite N.mod_small by lia.
    rewrite !cont_mod.
    destruct (N.ltb_spec (0xF0 + c / 0x40000) 0x80); [lia|].
    destruct (N.ltb_spec (0xF0 + c / 0x40000) 0xC0); [lia|].
    destruct (N.ltb_spec (0xF0 + c / 0x40000) 0xE0); [lia|].
    destruct (N.ltb_spec (0xF0 + c / 0x40000) 0xF0); [lia|].
    destruct (N.ltb_spec (0xF0 + c / 0x40000) 0xF8); [|lia].
    assert (E : ((0xF0 + c / 0x40000 - 0xF0) * 0x40000 + (c / 0x1000) mod 0x40 * 0x1000
                 + (c / 0x40) mod 0x40 * 0x40 + c mod 0x40 = c)%N).
    { pose proof (div_div_div_mod c). lia. }
    cbv zeta. rewrite E.
    destruct (N.ltb_spec c 0x10000); [lia|]. rewrite Hs. cbn [negb]. reflexivity. }
Qed.

Lemma utf8_roundtrip s b : utf8_encode s = Some b -> utf8_decode b = Some s.
Proof.
  revert b; induction s as [|c s IH]; intros b H; cbn [utf8_encode] in H.
  - now injection H as <-.
  - destruct (scalar c) eqn:Hs; [|discriminate].
    destruct (utf8_encode s) as [b'|] eqn:E; [|discriminate].
    injection H as <-. rewrite utf8_decode_char by assumption. now rewrite (IH b').
Qed.

Lemma utf8_encode_some s : (forall c, In c s -> scalar c = true) -> exists b, utf8_encode s = Some b.
Proof.
  induction s as [|c s IH]; intros H; cbn [utf8_encode]; [eauto|].
  rewrite (H c) by now left.
  destruct IH as [b ->]; [intros d Hd; apply H; now right|]. eauto.
Qed.

Lemma encode_str_inv s b :
  encode_str s = Some b ->
  exists sb lb, utf8_encode s = Some sb /\ uint64_to_bytes (N.of_nat (length sb)) = Some lb /\ b = lb ++ sb.
Proof.
  unfold encode_str. destruct (utf8_encode s) as [sb|]; [|discriminate].
  destruct (uint64_to_bytes _) as [lb|] eqn:E; [|discriminate].
  intros [= <-]. eauto 6.
Qed.

(** ** Commands *)

Lemma all_commands_complete c : In c all_commands.
Proof. destruct c; cbn; tauto. Qed.

Lemma command_value_some c : exists b, command_value c = Some [b] /\ b = command_byte c.
Proof. destruct c; vm_compute; eauto. Qed.

Lemma command_index_inj c d : index_of c all_commands = index_of d all_commands -> c = d.
Proof.
  assert (G : forall l, In c l -> In d l -> index_of c l = index_of d l -> c = d).
  { induction l as [|e l IH]; intros Hc Hd; cbn [index_of]; [destruct Hc|].
    destruct (command_eq_dec c e) as [->|Hce]; destruct (command_eq_dec d e) as [->|Hde];
      try congruence; try discriminate.
    intros [= E]. apply IH; [destruct Hc; congruence|destruct Hd; congruence|exact E]. }
  apply G; apply all_commands_complete.
Qed.

Lemma command_byte_inj c d : command_byte c = command_byte d -> c = d.
Proof.
  intros H. apply command_index_inj.
  assert (L : forall e, index_of e all_commands < 256).
  { intros e. assert (Hb : Nat.ltb (index_of e all_commands) 256 = true) by (destruct e; vm_compute; reflexivity).
    apply Nat.ltb_lt in Hb. exact Hb. }
  unfold command_byte in H.
  apply (f_equal Byte.to_N) in H. rewrite !to_N_byte_of_N in H.
  rewrite !N.mod_small in H by (match goal with |- (N.of_nat (index_of ?e _) < _)%N => pose proof (L e) end; lia).
  lia.
Qed.

Lemma uint64_defined n : (n < 2 ^ 64)%N <-> exists b, uint64_to_bytes n = Some b.
Proof.
  unfold uint64_to_bytes. destruct (N.ltb_spec n (2 ^ 64)) as [H|H]; split; intros E; eauto.
  - lia.
  - destruct E as [b E]. discriminate.
Qed.

Lemma uint64_unique b : length b = 8 ->
  exists n, uint64_to_bytes n = Some b /\ forall m, uint64_to_bytes m = Some b -> m = n.
Proof.
  intros H. exists (bytes_to_uint b). split; [now apply uint64_surj|].
  intros m Hm. apply uint64_roundtrip in Hm. now destruct Hm as [_ <-].
Qed.

Lemma command_one_byte c : exists b, command_value c = Some [b].
Proof. destruct (command_value_some c) as (b & H & _). eauto. Qed.

Lemma command_value_inj c d v : command_value c = Some v -> command_value d = Some v -> c = d.
Proof.
  intros Hc Hd. destruct (command_value_some c) as (x & Hx & Ex). destruct (command_value_some d) as (y & Hy & Ey).
  apply command_byte_inj. congruence.
Qed.

Lemma utf8_encode_defined s : (exists b, utf8_encode s = Some b) <-> (forall c, In c s -> scalar c = true).
Proof.
  split; [|apply utf8_encode_some].
  induction s as [|a s IH]; intros [b H] c Hc; [destruct Hc|]. cbn [utf8_encode] in H.
  destruct (scalar a) eqn:E; [|discriminate].
  destruct Hc as [<-|Hc]; [exact E|].
  destruct (utf8_encode s) as [b'|]; [|discriminate]. apply IH; eauto.
Qed.
