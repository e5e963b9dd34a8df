(* C48, continued: exactly which texts are addresses. *)

From Coq Require Import List NArith ZArith Arith Bool Lia.
From Verif Require Import CodecModel CodecProofs StreamModel StreamProofs AddressModel AddressProps.
Import ListNotations.

(** ** Specification: Python's integer literals in text *)

(** Decimal digits, with single underscores between them, and the number they write. *)
Inductive digit_text : pystr -> N -> Prop :=
| dt_first c : digit_char c -> digit_text [c] (c - 48)
| dt_next s n c : digit_text s n -> digit_char c -> digit_text (s ++ [c]) (10 * n + (c - 48))
| dt_underscore s n c : digit_text s n -> digit_char c -> digit_text (s ++ [95; c])%N (10 * n + (c - 48)).

(** Spaces around it, and a sign. *)
Definition int_text (s : pystr) (z : Z) : Prop :=
  exists before after sign d n,
    s = before ++ sign ++ d ++ after /\ (forall c, In c (before ++ after) -> is_space c = true) /\
    digit_text d n /\ (sign = [45]%N /\ z = (- Z.of_N n)%Z \/ (sign = [] \/ sign = [43]%N) /\ z = Z.of_N n).

(** host, one colon, port *)
Definition address_text (s : pystr) (host : pystr) (port : Z) : Prop :=
  exists p, s = host ++ colon :: p /\ ~ In colon host /\ ~ In colon p /\ int_text p port.

(** ** Proofs *)

Lemma is_digit_iff c : is_digit c = true <-> digit_char c.
Proof. split; [|apply digit_true]. unfold is_digit, digit_char. intros H. apply andb_prop in H. destruct H as [A B]. apply N.leb_le in A, B. lia. Qed.

Lemma digits_sound (s : pystr) : forall acc (b : bool) n (pre : pystr),
  (if b then digit_text pre acc else (pre = [] /\ acc = 0%N) \/ exists p, pre = p ++ [95]%N /\ digit_text p acc) ->
  digits s acc b = Some n -> digit_text (pre ++ s) n.
Proof.
  induction s as [|c s IH]; intros acc b n pre P E; cbn [digits] in E.
  - destruct b; [|discriminate]. injection E as <-. rewrite app_nil_r. exact P.
  - destruct (is_digit c) eqn:D.
    + apply is_digit_iff in D. replace (pre ++ c :: s) with ((pre ++ [c]) ++ s) by (rewrite <- app_assoc; reflexivity).
      apply (IH _ true _ _) with (2 := E). cbv iota. destruct b.
      * apply dt_next; assumption.
      * destruct P as [[-> ->]|[p [-> P]]]; [exact (dt_first c D)|]. rewrite <- app_assoc. apply dt_underscore; assumption.
    + destruct (N.eqb_spec c 95) as [->|]; [|discriminate]. destruct b; [|discriminate]. cbn [andb] in E.
      replace (pre ++ 95%N :: s) with ((pre ++ [95]%N) ++ s) by (rewrite <- app_assoc; reflexivity).
      apply (IH _ false _ _) with (2 := E). cbv iota. right. exists pre. auto.
Qed.

Lemma digits_complete d n : digit_text d n -> forall r, digits (d ++ r) 0 false = digits r n true.
Proof.
  induction 1 as [c D|s n c S IH D|s n c S IH D]; intros r.
  - cbn [app digits]. rewrite (digit_true c D). reflexivity.
  - rewrite <- app_assoc, IH. cbn [app digits]. rewrite (digit_true c D). reflexivity.
  - rewrite <- app_assoc, IH. cbn [app digits]. change (is_digit 95) with false. cbv iota. cbn [N.eqb Pos.eqb andb].
    rewrite (digit_true c D). reflexivity.
Qed.

Lemma digits_iff s n : digits s 0 false = Some n <-> digit_text s n.
Proof.
  split.
  - intros E. change s with ([] ++ s). apply (digits_sound s 0 false n []); auto.
  - intros D. pose proof (digits_complete s n D []) as E. rewrite app_nil_r in E. exact E.
Qed.

Lemma digit_text_chars s n : digit_text s n -> (exists c r, s = c :: r /\ digit_char c) /\ (exists c r, s = r ++ [c] /\ digit_char c).
Proof.
  induction 1 as [c D|s n c S [[c0 [r0 [-> D0]]] _] D|s n c S [[c0 [r0 [-> D0]]] _] D].
  - split; [exists c, []; auto|exists c, []; auto].
  - split; [exists c0, (r0 ++ [c]); auto|exists c, (c0 :: r0); auto].
  - split; [exists c0, (r0 ++ [95; c]%N); auto|exists c, ((c0 :: r0) ++ [95]%N); split; [rewrite <- app_assoc; reflexivity|exact D]].
Qed.

Lemma lstrip_split s : exists w, s = w ++ lstrip s /\ forall c, In c w -> is_space c = true.
Proof.
  induction s as [|c s [w [E H]]]; [exists []; split; [reflexivity|intros c []]|]. cbn [lstrip]. destruct (is_space c) eqn:S.
  - exists (c :: w). split; [cbn [app]; congruence|]. intros x [<-|I]; auto.
  - exists []. split; [reflexivity|intros x []].
Qed.

Lemma strip_split s : exists w w', s = w ++ strip s ++ w' /\ forall c, In c (w ++ w') -> is_space c = true.
Proof.
  destruct (lstrip_split s) as [w [E H]]. destruct (lstrip_split (rev (lstrip s))) as [w' [E' H']]. exists w, (rev w').
  split.
  - rewrite E at 1. f_equal. apply (f_equal (@rev N)) in E'. rewrite rev_involutive, rev_app_distr in E'. exact E'.
  - intros c I. apply in_app_or in I. destruct I as [I|I]; [auto|]. apply H', in_rev. exact I.
Qed.

Lemma lstrip_spaces w s : (forall c, In c w -> is_space c = true) -> lstrip (w ++ s) = lstrip s.
Proof.
  induction w as [|c w IH]; intros H; [reflexivity|]. cbn [app lstrip]. rewrite (H c) by (left; reflexivity).
  apply IH. intros x I. apply H. right. exact I.
Qed.

Lemma strip_around w w' c r c' r' : (forall c, In c (w ++ w') -> is_space c = true) ->
  c :: r = r' ++ [c'] -> is_space c = false -> is_space c' = false -> strip (w ++ (c :: r) ++ w') = c :: r.
Proof.
  intros H E S S'. unfold strip. rewrite lstrip_spaces by (intros x I; apply H, in_or_app; auto).
  cbn [app lstrip]. rewrite S. change (c :: r ++ w') with ((c :: r) ++ w'). rewrite rev_app_distr.
  rewrite lstrip_spaces by (intros x I; apply H, in_or_app; right; apply in_rev; exact I).
  rewrite E, rev_app_distr. cbn [rev app lstrip]. rewrite S'. cbn [rev]. rewrite rev_involutive. reflexivity.
Qed.

Lemma digit_not_space c : digit_char c -> is_space c = false.
Proof. intros D. apply is_space_false. unfold digit_char in D. lia. Qed.

Lemma int_of_iff s z : int_of s = Some z <-> int_text s z.
Proof.
  split.
  - intros E. destruct (strip_split s) as [w [w' [Es H]]]. unfold int_of in E. destruct (strip s) as [|c r]; [discriminate|].
    destruct (N.eqb_spec c 45) as [->|_].
    { destruct (digits r 0 false) as [n|] eqn:D; [|discriminate]. cbn in E. injection E as <-.
      exists w, w', [45]%N, r, n. split; [exact Es|]. split; [exact H|]. split; [apply digits_iff; exact D|]. left. auto. }
    destruct (N.eqb_spec c 43) as [->|_].
    { destruct (digits r 0 false) as [n|] eqn:D; [|discriminate]. cbn in E. injection E as <-.
      exists w, w', [43]%N, r, n. split; [exact Es|]. split; [exact H|]. split; [apply digits_iff; exact D|]. right. auto. }
    destruct (digits (c :: r) 0 false) as [n|] eqn:D; [|discriminate]. cbn in E. injection E as <-.
    exists w, w', [], (c :: r), n. split; [exact Es|]. split; [exact H|]. split; [apply digits_iff; exact D|]. right. auto.
  - intros [w [w' [sign [d [n [-> [H [D G]]]]]]]]. destruct (digit_text_chars d n D) as [[c [r [Ed Dc]]] [c' [r' [Ed' Dc']]]].
    pose proof (proj2 (digits_iff d n) D) as Dg. unfold int_of.
    assert (SG : forall g, g <> 45%N -> g = 43%N \/ False -> is_space g = false) by (intros g _ [->|[]]; reflexivity).
    destruct G as [[-> ->]|[[->| ->] ->]].
    + replace (w ++ [45]%N ++ d ++ w') with (w ++ (45%N :: d) ++ w') by reflexivity.
      rewrite (strip_around w w' 45 d c' (45%N :: r')); [|exact H|cbn [app]; congruence|reflexivity|exact (digit_not_space _ Dc')].
      cbn [N.eqb Pos.eqb]. rewrite Dg. reflexivity.
    + cbn [app]. rewrite Ed at 1. rewrite (strip_around w w' c r c' r'); [|exact H|congruence|exact (digit_not_space _ Dc)|exact (digit_not_space _ Dc')].
      unfold digit_char in Dc. destruct (N.eqb_spec c 45) as [->|_]; [lia|]. destruct (N.eqb_spec c 43) as [->|_]; [lia|].
      rewrite <- Ed, Dg. reflexivity.
    + replace (w ++ [43]%N ++ d ++ w') with (w ++ (43%N :: d) ++ w') by reflexivity.
      rewrite (strip_around w w' 43 d c' (43%N :: r')); [|exact H|cbn [app]; congruence|reflexivity|exact (digit_not_space _ Dc')].
      cbn [N.eqb Pos.eqb]. rewrite Dg. reflexivity.
Qed.

(** C48.  A text is read as an address exactly if it is a host without colons, a colon, and an
    integer; all other texts are refused. *)
Theorem C48_parses_exactly_addresses s host port : from_string s = Some (host, port) <-> address_text s host port.
Proof.
  unfold from_string. split.
  - intros E. destruct (split colon s) as [|h [|p [|x t]]] eqn:Q; try discriminate.
    destruct (split_two _ _ _ _ Q) as (-> & Hh & Hp). destruct (int_of p) as [n|] eqn:Ep; [|discriminate]. injection E as -> ->.
    exists p. split; [reflexivity|]. split; [exact Hh|]. split; [exact Hp|]. apply int_of_iff. exact Ep.
  - intros [p [-> [Hh [Hp I]]]]. rewrite split_app by exact Hh. rewrite split_no_sep by exact Hp.
    rewrite (proj2 (int_of_iff p port) I). reflexivity.
Qed.
Print Assumptions C48_parses_exactly_addresses.

Lemma run_bind_ret {A B} (r : reader A) (f : A -> option B) : forall buf b rest,
  run (StreamModel.bind r (fun a => match f a with Some b => Ret b | None => Raise end)) buf = Done b rest ->
  exists a, run r buf = Done a rest /\ f a = Some b.
Proof.
  induction r as [x| |n k IH]; intros buf b rest E; cbn in *.
  - exists x. destruct (f x); [|discriminate]. cbn in E. injection E as <- <-. auto.
  - discriminate.
  - destruct (n <=? length buf); [|discriminate]. apply IH. exact E.
Qed.

(** C48.  An address is read from a stream only if the text there is one; other text raises. *)
Theorem C48_stream_refuses_other_text buf s rest : run read_str buf = Done s rest ->
  (forall host port, address_text s host port -> run from_stream buf = Done (host, port) rest) /\
  ((forall host port, ~ address_text s host port) -> run from_stream buf = Failed).
Proof.
  intros R. unfold from_stream. rewrite (run_bind_done _ _ _ _ _ R). split.
  - intros host port T. rewrite (proj2 (C48_parses_exactly_addresses s host port) T). reflexivity.
  - intros H. destruct (from_string s) as [[h p]|] eqn:E; [|reflexivity]. destruct (H h p). apply C48_parses_exactly_addresses. exact E.
Qed.
Print Assumptions C48_stream_refuses_other_text.

(** "h: +8_0 " is an address with the port 80; "h:" and "h:-" are not addresses. *)
Example C48_parse_case :
  address_text [104; 58; 32; 43; 56; 95; 48; 32]%N [104]%N 80 /\
  (forall host port, ~ address_text [104; 58]%N host port) /\ (forall host port, ~ address_text [104; 58; 45]%N host port).
Proof.
  split; [apply C48_parses_exactly_addresses; reflexivity|].
  split; intros host port T; apply C48_parses_exactly_addresses in T; discriminate.
Qed.
