(* Proofs for C85: the fields of a handshake, one after the other. *)

From Coq Require Import List NArith ZArith Arith Bool Lia.
From Coq Require Import Strings.Byte.
From Verif Require Import CodecModel CodecProofs StreamModel AddressModel AddressProps Dict HandshakeModel HandshakeSpec
  HandshakeNetProofs.
Import ListNotations.

(** ** Texts *)

Lemma utf8_char_short c : length (utf8_char c) <= 4.
Proof. unfold utf8_char. destruct (_ <? _)%N; [cbn; lia|]. destruct (_ <? _)%N; [cbn; lia|]. destruct (_ <? _)%N; cbn; lia. Qed.

Lemma utf8_encode_short s : forall b, utf8_encode s = Some b -> length b <= 4 * length s.
Proof.
  induction s as [|c s IH]; cbn [utf8_encode]; intros b H; [injection H as <-; cbn; lia|].
  destruct (scalar c); [|discriminate]. destruct (utf8_encode s) as [b'|]; [|discriminate]. injection H as <-.
  rewrite app_length. assert (L := utf8_char_short c). specialize (IH _ eq_refl). cbn [length]. lia.
Qed.

Lemma sendable_encodes s : sendable s -> exists b, encode_str s = Some b.
Proof.
  intros (Hs & Hl). destruct (utf8_encode_some s Hs) as (b & Eb).
  unfold encode_str. rewrite Eb. assert (L := utf8_encode_short _ _ Eb).
  destruct (uint64_some (N.of_nat (length b))) as (lb & ->); [lia|]. eauto.
Qed.

Lemma unsendable_fails s : (exists c, In c s /\ scalar c = false) -> encode_str s = None.
Proof.
  intros (c & Hc & Sc). unfold encode_str. destruct (utf8_encode s) as [b|] eqn:E; [|reflexivity].
  assert (H : exists b, utf8_encode s = Some b) by eauto. rewrite utf8_encode_defined in H. rewrite (H c Hc) in Sc. discriminate.
Qed.

(** ** Identifiers *)

Lemma hex_digits_length k : forall n, length (hex_digits k n) = k.
Proof. induction k as [|k IH]; intros n; cbn [hex_digits]; [reflexivity|]. rewrite app_length, IH. cbn. lia. Qed.

Lemma hex_char_range d : (d < 16)%N -> (48 <= hex_char d <= 57 \/ 97 <= hex_char d <= 102)%N.
Proof. unfold hex_char. destruct (N.ltb_spec d 10); lia. Qed.

Lemma hex_value_char d : (d < 16)%N -> hex_value (hex_char d) = Some d.
Proof.
  intros H. unfold hex_char, hex_value. destruct (N.ltb_spec d 10) as [L|L].
  - destruct (N.leb_spec 48 (48 + d)); [|lia]. destruct (N.leb_spec (48 + d) 57); [|lia]. cbn [andb]. f_equal. lia.
  - destruct (N.leb_spec 48 (87 + d)); [|lia]. destruct (N.leb_spec (87 + d) 57); [lia|]. cbn [andb].
    destruct (N.leb_spec 97 (87 + d)); [|lia]. destruct (N.leb_spec (87 + d) 102); [|lia]. cbn [andb]. f_equal. lia.
Qed.

Lemma hex_digits_range k : forall n c, In c (hex_digits k n) -> (48 <= c <= 57 \/ 97 <= c <= 102)%N.
Proof.
  induction k as [|k IH]; intros n c H; cbn [hex_digits] in H; [destruct H|].
  apply in_app_or in H. destruct H as [H|[<-|[]]]; [eauto|]. apply hex_char_range. apply N.mod_upper_bound. lia.
Qed.

Lemma hex_int_app s : forall t acc, hex_int (s ++ t) acc =
  match hex_int s acc with Some v => hex_int t v | None => None end.
Proof.
  induction s as [|c s IH]; intros t acc; cbn [hex_int app]; [reflexivity|]. destruct (hex_value c); [apply IH|reflexivity].
Qed.

Lemma hex_int_digits k : forall n acc, (n < 16 ^ N.of_nat k)%N ->
  hex_int (hex_digits k n) acc = Some (acc * 16 ^ N.of_nat k + n)%N.
Proof.
  induction k as [|k IH]; intros n acc H.
  - change (16 ^ N.of_nat 0)%N with 1%N in *. cbn [hex_digits hex_int]. f_equal. lia.
  - rewrite Nat2N.inj_succ, N.pow_succ_r' in *. cbn [hex_digits]. rewrite hex_int_app.
    assert (D := N.div_mod n 16). assert (M := N.mod_upper_bound n 16).
    rewrite IH by (apply N.div_lt_upper_bound; lia).
    cbn [hex_int]. rewrite hex_value_char by lia. f_equal. lia.
Qed.

Lemma filter_all {A} (f : A -> bool) l : (forall x, In x l -> f x = true) -> filter f l = l.
Proof. induction l as [|x l IH]; cbn; intros H; [reflexivity|]. rewrite H by auto. f_equal. auto. Qed.

Lemma uuid_round_trip u : id_ok u -> parse_uuid (show_uuid u) = Some u.
Proof.
  intros H. unfold parse_uuid, show_uuid.
  set (h := hex_digits 32 u). set (f := fun c : N => negb (c =? 45)%N).
  assert (Hh : forall c, In c h -> f c = true).
  { intros c Hc. apply hex_digits_range in Hc. unfold f. destruct (N.eqb_spec c 45); [lia|reflexivity]. }
  assert (F : filter f (firstn 8 h ++ [45%N] ++ firstn 4 (skipn 8 h) ++ [45%N] ++ firstn 4 (skipn 12 h) ++ [45%N]
      ++ firstn 4 (skipn 16 h) ++ [45%N] ++ skipn 20 h) = h).
  { rewrite !filter_app. change (filter f [45%N]) with (@nil N). cbn [app].
    rewrite !filter_all; [|intros c Hc; apply Hh..].
    - rewrite <- (firstn_skipn 8 h) at 6. f_equal.
    - rewrite <- (firstn_skipn 20 h). apply in_or_app. auto.
    - rewrite <- (firstn_skipn 16 h). apply in_or_app. right. rewrite <- (firstn_skipn 4 (skipn 16 h)). apply in_or_app. auto.
    - rewrite <- (firstn_skipn 12 h). apply in_or_app. right. rewrite <- (firstn_skipn 4 (skipn 12 h)). apply in_or_app. auto.
    - rewrite <- (firstn_skipn 8 h). apply in_or_app. right. rewrite <- (firstn_skipn 4 (skipn 8 h)). apply in_or_app. auto.
    - rewrite <- (firstn_skipn 8 h). apply in_or_app. auto. }
  rewrite F. unfold h at 1. rewrite hex_digits_length. cbn [Nat.eqb].
  unfold h. rewrite hex_int_digits; [reflexivity|]. exact H.
Qed.

Lemma show_uuid_chars u c : In c (show_uuid u) -> (48 <= c <= 57 \/ 97 <= c <= 102 \/ c = 45)%N.
Proof.
  unfold show_uuid. set (h := hex_digits 32 u). intros H.
  assert (Hh : forall x, In x h -> (48 <= x <= 57 \/ 97 <= x <= 102 \/ x = 45)%N).
  { intros x Hx. apply hex_digits_range in Hx. lia. }
  assert (Hf : forall n l, (forall x, In x l -> In x h) -> In c (firstn n l) -> In c h).
  { intros n l Hl Hc. apply Hl. rewrite <- (firstn_skipn n l). apply in_or_app. auto. }
  assert (Hs : forall n x, In x (skipn n h) -> In x h).
  { intros n x Hx. rewrite <- (firstn_skipn n h). apply in_or_app. auto. }
  repeat (apply in_app_or in H; destruct H as [H|H]); try (destruct H as [<-|[]]; auto; fail); apply Hh; eauto.
Qed.

Lemma show_uuid_length u : length (show_uuid u) = 36.
Proof.
  unfold show_uuid. rewrite !app_length, !firstn_length, !skipn_length, hex_digits_length. reflexivity.
Qed.

Lemma show_uuid_sendable u : sendable (show_uuid u).
Proof.
  split.
  - intros c H. apply show_uuid_chars in H. unfold scalar. destruct (N.ltb_spec c 0xD800); [reflexivity|lia].
  - rewrite show_uuid_length. reflexivity.
Qed.

Lemma show_uuid_nonempty u : show_uuid u <> [].
Proof. intros E. assert (L := show_uuid_length u). rewrite E in L. discriminate. Qed.

(** ** The list of publishers in an update *)

Lemma split_join l : (forall s, In s l -> ~ In 44%N s) -> l <> [] -> split 44 (join_comma l) = l.
Proof.
  induction l as [|s l IH]; intros H N; [congruence|]. destruct l as [|t l].
  - cbn [join_comma]. apply split_no_sep. apply H. left. reflexivity.
  - change (join_comma (s :: t :: l)) with (s ++ 44%N :: join_comma (t :: l)).
    rewrite split_app by (apply H; left; reflexivity). f_equal. apply IH; [|discriminate]. intros x Hx. apply H. right. exact Hx.
Qed.

Lemma parse_update_join ids : (forall u, In u ids -> id_ok u) ->
  parse_update (join_comma (map show_uuid ids)) = Some (fold_left (fun l u => sadd u l) ids []).
Proof.
  intros H. destruct ids as [|u ids]; [reflexivity|].
  assert (NE : join_comma (map show_uuid (u :: ids)) <> []).
  { cbn [map]. destruct (map show_uuid ids); cbn [join_comma].
    - apply show_uuid_nonempty.
    - intros E. apply app_eq_nil in E. destruct E as (_ & E). discriminate. }
  unfold parse_update. destruct (join_comma (map show_uuid (u :: ids))) as [|c s] eqn:E; [congruence|]. rewrite <- E.
  rewrite split_join; [|intros s' Hs'; apply in_map_iff in Hs'; destruct Hs' as (v & <- & _);
    intros Hc; apply show_uuid_chars in Hc; lia|discriminate].
  assert (G : forall l acc, (forall v, In v l -> id_ok v) ->
    fold_left (fun acc t => match acc, parse_uuid t with Some l, Some v => Some (sadd v l) | _, _ => None end)
      (map show_uuid l) (Some acc) = Some (fold_left (fun l v => sadd v l) l acc)).
  { clear. induction l as [|v l IH]; intros acc H; [reflexivity|]. cbn [map fold_left].
    rewrite uuid_round_trip by (apply H; left; reflexivity). apply IH. intros w Hw. apply H. right. exact Hw. }
  apply (G (u :: ids) []). exact H.
Qed.

(** ** Steps of the network *)

Definition goes (n m : net) : Prop := exists k, reach k n m.

Lemma goes_refl n : goes n n.
Proof. exists 0. constructor. Qed.

Lemma goes_trans n m o : goes n m -> goes m o -> goes n o.
Proof. intros (k & R) (l & S). exists (k + l). eapply reach_trans; eauto. Qed.

Lemma goes_step a n m : step a n = Some m -> goes n m.
Proof. intros H. exists 1. econstructor; [exact H|constructor]. Qed.

Lemma goes_comes (P : net -> Prop) n m : goes n m -> stuck m -> P m -> comes_to P n.
Proof.
  intros (k & R) St Pm. eapply comes_weaken; [|eapply reach_comes; eauto]. intros z <-. exact Pm.
Qed.

(** A connection that is made and through which nothing is under way; who is at its ends. *)
Definition idle (f t : nat) (a : option address) : conn := mkConn f t a true fresh_way fresh_way.

Lemma deliver_all_out ps c f t a v wire : forall cs buf, nth_error cs c = Some (mkConn f t a true (mkWay buf wire false false) v) ->
  forall lk, goes (mkNet ps cs lk) (mkNet ps (set_nth c (mkConn f t a true (mkWay (buf ++ wire) [] false false) v) cs) lk).
Proof.
  induction wire as [|b wire IH]; intros cs buf H lk.
  - rewrite app_nil_r.
    assert (E : set_nth c (mkConn f t a true (mkWay buf [] false false) v) cs = cs).
    { revert H. generalize (mkConn f t a true (mkWay buf [] false false) v). revert c. clear.
      induction cs as [|y cs IH]; intros [|c] x H; cbn in *; try discriminate; [now injection H as ->|]. f_equal. auto. }
    rewrite E. apply goes_refl.
  - eapply goes_trans.
    + eapply (goes_step (Deliver c true)). rewrite step_deliver. cbn. rewrite H. cbn. reflexivity.
    + cbn. eapply goes_trans; [apply IH; eapply nth_set_same; exact H|]. cbn. rewrite set_set_same, <- app_assoc. apply goes_refl.
Qed.

Lemma deliver_all_back ps c f t a v wire : forall cs buf, nth_error cs c = Some (mkConn f t a true v (mkWay buf wire false false)) ->
  forall lk, goes (mkNet ps cs lk) (mkNet ps (set_nth c (mkConn f t a true v (mkWay (buf ++ wire) [] false false)) cs) lk).
Proof.
  induction wire as [|b wire IH]; intros cs buf H lk.
  - rewrite app_nil_r.
    assert (E : set_nth c (mkConn f t a true v (mkWay buf [] false false)) cs = cs).
    { revert H. generalize (mkConn f t a true v (mkWay buf [] false false)). revert c. clear.
      induction cs as [|y cs IH]; intros [|c] x H; cbn in *; try discriminate; [now injection H as ->|]. f_equal. auto. }
    rewrite E. apply goes_refl.
  - eapply goes_trans.
    + eapply (goes_step (Deliver c false)). rewrite step_deliver. cbn. rewrite H. cbn. reflexivity.
    + cbn. eapply goes_trans; [apply IH; eapply nth_set_same; exact H|]. cbn. rewrite set_set_same, <- app_assoc. apply goes_refl.
Qed.

(** The connection with bytes for coroutine [j] in its buffer. *)
Definition holding (j f t : nat) (a : option address) (b : bytes) : conn :=
  if j =? t then mkConn f t a true (mkWay b [] false false) fresh_way
  else mkConn f t a true fresh_way (mkWay b [] false false).

Definition ends (i j f t : nat) : Prop := i <> j /\ (i = f /\ j = t \/ i = t /\ j = f).

Lemma holding_nil j f t a : holding j f t a [] = idle f t a.
Proof. unfold holding. destruct (j =? t); reflexivity. Qed.

Lemma go_write i j ps cs lk c b k l f t a : ends i j f t ->
  nth_error ps i = Some (mkProc (Write c b k) l) -> nth_error cs c = Some (idle f t a) ->
  goes (mkNet ps cs lk) (mkNet (set_nth i (mkProc k l) ps) (set_nth c (holding j f t a b) cs) lk).
Proof.
  intros (N & [(-> & ->)|(-> & ->)]) Hp Hc.
  - eapply goes_trans.
    + eapply (goes_step (Run f)).
      eapply (step_act f (mkNet ps cs lk) (mkProc (Write c b k) l) c (idle f t a) k); [exact Hp|reflexivity|exact Hc|].
      cbn [act]. unfold writes, idle. cbn. rewrite Nat.eqb_refl. reflexivity.
    + cbn [n_procs n_conns n_lock p_locked]. unfold send, fresh_way. cbn.
      eapply goes_trans; [apply (deliver_all_out _ c f t a fresh_way b); eapply nth_set_same; exact Hc|].
      unfold holding. rewrite Nat.eqb_refl, set_set_same. apply goes_refl.
  - eapply goes_trans.
    + eapply (goes_step (Run t)).
      eapply (step_act t (mkNet ps cs lk) (mkProc (Write c b k) l) c (idle f t a) k); [exact Hp|reflexivity|exact Hc|].
      cbn [act]. unfold writes, idle. cbn. destruct (Nat.eqb_spec t f) as [E|_]; [congruence|]. rewrite Nat.eqb_refl. reflexivity.
    + cbn [n_procs n_conns n_lock p_locked]. unfold send, fresh_way. cbn.
      eapply goes_trans; [apply (deliver_all_back _ c f t a fresh_way b); eapply nth_set_same; exact Hc|].
      unfold holding. destruct (Nat.eqb_spec f t) as [E|_]; [congruence|]. rewrite set_set_same. apply goes_refl.
Qed.

Lemma go_read1 i j ps cs lk c b rest k l f t a : ends i j f t ->
  nth_error ps j = Some (mkProc (Read1 c k) l) -> nth_error cs c = Some (holding j f t a (b :: rest)) ->
  goes (mkNet ps cs lk) (mkNet (set_nth j (mkProc (k (Some b)) l) ps) (set_nth c (holding j f t a rest) cs) lk).
Proof.
  intros (N & E) Hp Hc. eapply (goes_step (Run j)).
  eapply (step_act j (mkNet ps cs lk) (mkProc (Read1 c k) l) c _ (k (Some b))); [exact Hp|reflexivity|exact Hc|].
  cbn [act]. unfold reads, holding. destruct E as [(-> & ->)|(-> & ->)].
  - rewrite Nat.eqb_refl. cbn. destruct (Nat.eqb_spec t f); [congruence|]. rewrite Nat.eqb_refl. reflexivity.
  - destruct (Nat.eqb_spec f t); [congruence|]. cbn. rewrite Nat.eqb_refl. reflexivity.
Qed.

Lemma go_readN i j ps cs lk c n b rest k h l f t a : ends i j f t -> length b = n ->
  nth_error ps j = Some (mkProc (ReadN c n k h) l) -> nth_error cs c = Some (holding j f t a (b ++ rest)) ->
  goes (mkNet ps cs lk) (mkNet (set_nth j (mkProc (k b) l) ps) (set_nth c (holding j f t a rest) cs) lk).
Proof.
  intros (N & E) <- Hp Hc. eapply (goes_step (Run j)).
  eapply (step_act j (mkNet ps cs lk) (mkProc (ReadN c (length b) k h) l) c _ (k b)); [exact Hp|reflexivity|exact Hc|].
  assert (T : forall v, take (length b) (mkWay (b ++ rest) [] v false) = Some (Some b, mkWay rest [] v false)).
  { intros v. unfold take. cbn. rewrite app_length. destruct (Nat.leb_spec (length b) (length b + length rest)); [|lia].
    rewrite firstn_app, skipn_app, Nat.sub_diag, firstn_all, skipn_all. cbn. rewrite app_nil_r. reflexivity. }
  cbn [act]. unfold reads, holding. destruct E as [(-> & ->)|(-> & ->)].
  - rewrite Nat.eqb_refl. cbn. destruct (Nat.eqb_spec t f); [congruence|]. rewrite Nat.eqb_refl, T. reflexivity.
  - destruct (Nat.eqb_spec f t); [congruence|]. cbn. rewrite Nat.eqb_refl, T. reflexivity.
Qed.

Lemma go_rd_int i j ps cs lk c n b rest k h l f t a : ends i j f t -> uint64_to_bytes n = Some b ->
  nth_error ps j = Some (mkProc (rd_int c k h) l) -> nth_error cs c = Some (holding j f t a (b ++ rest)) ->
  goes (mkNet ps cs lk) (mkNet (set_nth j (mkProc (k n) l) ps) (set_nth c (holding j f t a rest) cs) lk).
Proof.
  intros E H Hp Hc. apply uint64_roundtrip in H. destruct H as (L & V).
  eapply goes_trans; [eapply go_readN; eauto|]. cbn beta. rewrite V. apply goes_refl.
Qed.

Lemma go_rd_str i j ps cs lk c s b rest k h l f t a : ends i j f t -> encode_str s = Some b ->
  nth_error ps j = Some (mkProc (rd_str c k h) l) -> nth_error cs c = Some (holding j f t a (b ++ rest)) ->
  goes (mkNet ps cs lk) (mkNet (set_nth j (mkProc (k s) l) ps) (set_nth c (holding j f t a rest) cs) lk).
Proof.
  intros E H Hp Hc. apply encode_str_inv in H. destruct H as (sb & lb & Hu & Hl & ->). rewrite <- app_assoc in Hc.
  eapply goes_trans; [eapply (go_rd_int i j _ _ _ c _ _ (sb ++ rest)); eauto|]. cbn beta.
  eapply goes_trans.
  - eapply (go_readN i j _ _ _ c _ sb rest); [eauto|..].
    + symmetry. apply Nat2N.id.
    + eapply nth_set_same. exact Hp.
    + eapply nth_set_same. exact Hc.
  - cbn beta. rewrite (utf8_roundtrip _ _ Hu), !set_set_same. apply goes_refl.
Qed.

Lemma set_id {A} (l : list A) : forall i x, nth_error l i = Some x -> set_nth i x l = l.
Proof. induction l as [|y l IH]; intros [|i] x H; cbn in *; try discriminate; [now injection H as ->|]. f_equal. auto. Qed.

(** One field goes from coroutine [i] to coroutine [j]; afterwards the connection is idle again. *)
Lemma x_str i j ps cs lk c s k h k' h' l l' f t a : ends i j f t -> sendable s ->
  nth_error ps i = Some (mkProc (wr_str c s k h) l) -> nth_error ps j = Some (mkProc (rd_str c k' h') l') ->
  nth_error cs c = Some (idle f t a) ->
  goes (mkNet ps cs lk) (mkNet (set_nth j (mkProc (k' s) l') (set_nth i (mkProc k l) ps)) cs lk).
Proof.
  intros E S Hi Hj Hc. destruct (sendable_encodes _ S) as (b & B). unfold wr_str in Hi. rewrite B in Hi.
  eapply goes_trans; [eapply (go_write i j); eauto|].
  eapply goes_trans.
  - eapply (go_rd_str i j _ _ _ c s b []); eauto.
    + rewrite nth_set_other; [exact Hj|]. apply E.
    + rewrite app_nil_r. eapply nth_set_same. exact Hc.
  - rewrite holding_nil, set_set_same, (set_id cs) by exact Hc. apply goes_refl.
Qed.

Lemma x_int i j ps cs lk c n k h k' h' l l' f t a : ends i j f t -> fits64 n ->
  nth_error ps i = Some (mkProc (wr_int c n k h) l) -> nth_error ps j = Some (mkProc (rd_int c k' h') l') ->
  nth_error cs c = Some (idle f t a) ->
  goes (mkNet ps cs lk) (mkNet (set_nth j (mkProc (k' n) l') (set_nth i (mkProc k l) ps)) cs lk).
Proof.
  intros E S Hi Hj Hc. destruct (uint64_some _ S) as (b & B). unfold wr_int in Hi. rewrite B in Hi.
  eapply goes_trans; [eapply (go_write i j); eauto|].
  eapply goes_trans.
  - eapply (go_rd_int i j _ _ _ c n b []); eauto.
    + rewrite nth_set_other; [exact Hj|]. apply E.
    + rewrite app_nil_r. eapply nth_set_same. exact Hc.
  - rewrite holding_nil, set_set_same, (set_id cs) by exact Hc. apply goes_refl.
Qed.

Lemma x_cmd i j ps cs lk c m k k' l l' f t a : ends i j f t ->
  nth_error ps i = Some (mkProc (wr_cmd c m k) l) -> nth_error ps j = Some (mkProc (Read1 c k') l') ->
  nth_error cs c = Some (idle f t a) ->
  goes (mkNet ps cs lk) (mkNet (set_nth j (mkProc (k' (Some (command_byte m))) l') (set_nth i (mkProc k l) ps)) cs lk).
Proof.
  intros E Hi Hj Hc. unfold wr_cmd in Hi.
  eapply goes_trans; [eapply (go_write i j); eauto|].
  eapply goes_trans.
  - eapply (go_read1 i j _ _ _ c (command_byte m) []); eauto.
    + rewrite nth_set_other; [exact Hj|]. apply E.
    + eapply nth_set_same. exact Hc.
  - rewrite holding_nil, set_set_same, (set_id cs) by exact Hc. apply goes_refl.
Qed.

(** pubclient.py:395-396: a command and a number in one write. *)
Lemma x_cmd_int i j ps cs lk c m n k k' l l' f t a b k2 h2 : ends i j f t -> uint64_to_bytes n = Some b ->
  nth_error ps i = Some (mkProc (Write c (command_byte m :: b) k) l) -> nth_error ps j = Some (mkProc (Read1 c k') l') ->
  k' (Some (command_byte m)) = rd_int c k2 h2 ->
  nth_error cs c = Some (idle f t a) ->
  goes (mkNet ps cs lk) (mkNet (set_nth j (mkProc (k2 n) l') (set_nth i (mkProc k l) ps)) cs lk).
Proof.
  intros E B Hi Hj Hk Hc.
  assert (Hj' : nth_error (set_nth i (mkProc k l) ps) j = Some (mkProc (Read1 c k') l')).
  { rewrite nth_set_other; [exact Hj|]. apply E. }
  eapply goes_trans; [eapply (go_write i j); eauto|].
  eapply goes_trans; [eapply (go_read1 i j _ _ _ c (command_byte m) b); eauto; eapply nth_set_same; exact Hc|].
  rewrite Hk. eapply goes_trans.
  - eapply (go_rd_int i j _ _ _ c n b []); eauto.
    + eapply nth_set_same. exact Hj'.
    + rewrite app_nil_r, set_set_same. eapply nth_set_same. exact Hc.
  - rewrite holding_nil, !set_set_same, (set_id cs) by exact Hc. apply goes_refl.
Qed.

Lemma x_uuid i j ps cs lk c u k h k' h' l l' f t a : ends i j f t -> id_ok u ->
  nth_error ps i = Some (mkProc (wr_str c (show_uuid u) k h) l) -> nth_error ps j = Some (mkProc (rd_uuid c k' h') l') ->
  nth_error cs c = Some (idle f t a) ->
  goes (mkNet ps cs lk) (mkNet (set_nth j (mkProc (k' u) l') (set_nth i (mkProc k l) ps)) cs lk).
Proof.
  intros E S Hi Hj Hc. unfold rd_uuid in Hj.
  eapply goes_trans; [eapply (x_str i j); eauto; apply show_uuid_sendable|]. cbn beta. rewrite uuid_round_trip by exact S. apply goes_refl.
Qed.

Lemma x_address i j ps cs lk c ad k h k' h' l l' f t a : ends i j f t -> address_ok ad ->
  nth_error ps i = Some (mkProc (wr_str c (str_address ad) k h) l) -> nth_error ps j = Some (mkProc (rd_address c k' h') l') ->
  nth_error cs c = Some (idle f t a) ->
  goes (mkNet ps cs lk) (mkNet (set_nth j (mkProc (k' ad) l') (set_nth i (mkProc k l) ps)) cs lk).
Proof.
  intros E (S1 & S2) Hi Hj Hc. unfold rd_address in Hj.
  eapply goes_trans; [eapply (x_str i j); eauto|]. cbn beta. destruct ad as [host port]. cbn in S1.
  rewrite C48_print_parse by exact S1. apply goes_refl.
Qed.

(** A connection is made. *)
Lemma x_dial f t ps cs lk c ad k h k' l l' : f <> t ->
  nth_error ps f = Some (mkProc (Dial c ad k h) l) -> nth_error ps t = Some (mkProc (Accept c k') l') ->
  nth_error cs c = Some (new_conn f t (Some ad)) ->
  goes (mkNet ps cs lk)
    (mkNet (set_nth t (mkProc k' l') (set_nth f (mkProc k l) ps)) (set_nth c (idle f t (Some ad)) cs) lk).
Proof.
  intros N Hf Ht Hc. eapply goes_trans.
  - eapply (goes_step (Run f)). eapply (step_act f (mkNet ps cs lk) _ c _ k); [exact Hf|reflexivity|exact Hc|].
    cbn. rewrite Nat.eqb_refl. cbn. destruct (address_dec ad ad); [reflexivity|congruence].
  - eapply goes_step with (a := Run t). cbn [n_procs n_conns n_lock p_locked].
    erewrite (step_act t (mkNet _ _ _) (mkProc (Accept c k') l') c (idle f t (Some ad)) k').
    + cbn. rewrite set_set_same. reflexivity.
    + cbn. rewrite nth_set_other by exact N. exact Ht.
    + reflexivity.
    + cbn. eapply nth_set_same. exact Hc.
    + cbn. rewrite Nat.eqb_refl. destruct (Nat.eqb_spec t f); [congruence|]. reflexivity.
Qed.

Lemma x_refused f t ps cs lk c ad k h l at_ : at_ <> Some ad ->
  nth_error ps f = Some (mkProc (Dial c ad k h) l) -> nth_error cs c = Some (new_conn f t at_) ->
  goes (mkNet ps cs lk) (mkNet (set_nth f (mkProc h l) ps) cs lk).
Proof.
  intros N Hf Hc. eapply (goes_step (Run f)).
  rewrite (step_act f (mkNet ps cs lk) _ c (new_conn f t at_) h (new_conn f t at_) Hf eq_refl Hc).
  - cbn. rewrite (set_id cs) by exact Hc. reflexivity.
  - cbn. rewrite Nat.eqb_refl. cbn. destruct at_ as [a'|]; [|reflexivity]. destruct (address_dec ad a'); [congruence|reflexivity].
Qed.

Lemma x_lock i ps cs k l :
  nth_error ps i = Some (mkProc (Lock k) l) -> goes (mkNet ps cs false) (mkNet (set_nth i (mkProc k true) ps) cs false).
Proof. intros H. apply (goes_step (Run i)). apply (step_lock i (mkNet ps cs false) _ _ H). reflexivity. Qed.

Lemma x_unlock i ps cs lk k l :
  nth_error ps i = Some (mkProc (Unlock k) l) -> goes (mkNet ps cs lk) (mkNet (set_nth i (mkProc k false) ps) cs lk).
Proof. intros H. apply (goes_step (Run i)). apply (step_lock i (mkNet ps cs lk) _ _ H). reflexivity. Qed.

(** Coroutine [i] closes its end and [j], which waits for a byte, is told. *)
Definition half (i f t : nat) (a : option address) : conn :=
  if i =? f then mkConn f t a true (mkWay [] [] true true) fresh_way
  else mkConn f t a true fresh_way (mkWay [] [] true true).

Lemma x_close i j ps cs lk c k k' l l' f t a : ends i j f t ->
  nth_error ps i = Some (mkProc (Close c k) l) -> nth_error ps j = Some (mkProc (Read1 c k') l') ->
  nth_error cs c = Some (idle f t a) ->
  goes (mkNet ps cs lk) (mkNet (set_nth j (mkProc (k' None) l') (set_nth i (mkProc k l) ps)) (set_nth c (half i f t a) cs) lk).
Proof.
  intros (N & E) Hi Hj Hc. unfold half.
  destruct E as [(-> & ->)|(-> & ->)].
  - eapply goes_trans; [|eapply goes_trans].
    + eapply (goes_step (Run f)). eapply (step_act f (mkNet ps cs lk) _ c _ k); [exact Hi|reflexivity|exact Hc|].
      cbn [p_prog act]. unfold writes, idle. cbn. rewrite Nat.eqb_refl. reflexivity.
    + eapply (goes_step (Deliver c true)). rewrite step_deliver. cbn. rewrite (nth_set_same _ _ _ _ Hc). cbn. reflexivity.
    + eapply (goes_step (Run t)). rewrite set_set_same.
      erewrite (step_act t (mkNet _ _ _) _ c _ (k' None)); [|cbn; rewrite nth_set_other by exact N; exact Hj|reflexivity|cbn; eapply nth_set_same; exact Hc|].
      * cbn [n_procs n_conns n_lock p_locked]. rewrite set_set_same. reflexivity.
      * cbn. unfold reads. cbn. destruct (Nat.eqb_spec t f); [congruence|]. rewrite !Nat.eqb_refl. reflexivity.
  - destruct (Nat.eqb_spec t f); [congruence|].
    eapply goes_trans; [|eapply goes_trans].
    + eapply (goes_step (Run t)). eapply (step_act t (mkNet ps cs lk) _ c _ k); [exact Hi|reflexivity|exact Hc|].
      cbn [p_prog act]. unfold writes, idle. cbn. destruct (Nat.eqb_spec t f); [congruence|]. rewrite Nat.eqb_refl. reflexivity.
    + eapply (goes_step (Deliver c false)). rewrite step_deliver. cbn. rewrite (nth_set_same _ _ _ _ Hc). cbn. reflexivity.
    + eapply (goes_step (Run f)). rewrite set_set_same.
      erewrite (step_act f (mkNet _ _ _) _ c _ (k' None)); [|cbn; rewrite nth_set_other by exact N; exact Hj|reflexivity|cbn; eapply nth_set_same; exact Hc|].
      * cbn [n_procs n_conns n_lock p_locked]. rewrite set_set_same. reflexivity.
      * cbn. unfold reads. cbn. rewrite !Nat.eqb_refl. reflexivity.
Qed.
