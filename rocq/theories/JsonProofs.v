(* Proofs about the text of log entries: what is written is read back; a text takes one line; a text
   that is cut off is not read. *)

From Coq Require Import String List NArith ZArith Arith Bool Lia DecimalPos DecimalN.
From Verif Require Import CodecModel AddressModel AddressProps JsonModel JsonSpec.
Import ListNotations.

Ltac Zify.zify_post_hook ::= Z.div_mod_to_equations.

(** ** Induction over JSON values *)

Section JsonInd.
Variable P : json -> Prop.
Hypothesis HNull : P JNull.
Hypothesis HBool : forall b, P (JBool b).
Hypothesis HInt : forall z, P (JInt z).
Hypothesis HFloat : forall f, P (JFloat f).
Hypothesis HStr : forall s, P (JStr s).
Hypothesis HArr : forall l, Forall P l -> P (JArr l).
Hypothesis HObj : forall l, Forall (fun p => P (snd p)) l -> P (JObj l).
Fixpoint json_ind' (j : json) : P j :=
  match j with
  | JNull => HNull | JBool b => HBool b | JInt z => HInt z | JFloat f => HFloat f | JStr s => HStr s
  | JArr l => HArr l ((fix all l : Forall P l := match l with [] => Forall_nil _ | x :: r => Forall_cons _ (json_ind' x) (all r) end) l)
  | JObj l => HObj l ((fix all l : Forall (fun p => P (snd p)) l :=
                         match l with [] => Forall_nil _ | x :: r => Forall_cons _ (json_ind' (snd x)) (all r) end) l)
  end.
End JsonInd.

Lemma good_arr l : good_json (JArr l) <-> Forall good_json l.
Proof.
  induction l as [|x r IH]; [split; [constructor|intros _; exact I]|].
  split.
  - intros [A B]. constructor; [exact A|]. apply IH. exact B.
  - intros F. inversion F; subst. split; [assumption|]. apply IH. assumption.
Qed.

Lemma good_obj l : good_json (JObj l) <-> Forall (fun p => good_string (fst p) /\ good_json (snd p)) l.
Proof.
  induction l as [|x r IH]; [split; [constructor|intros _; exact I]|].
  split.
  - intros [A [B C]]. constructor; [split; assumption|]. apply IH. exact C.
  - intros F. inversion F as [|? ? [A B] C]; subst. split; [assumption|]. split; [assumption|]. apply IH. assumption.
Qed.

(** ** Strings *)

Lemma hex_digit_value n : (n < 16)%N -> hex_value (hex_digit n) = Some n.
Proof.
  intros H. assert (E : (n = 0 \/ n = 1 \/ n = 2 \/ n = 3 \/ n = 4 \/ n = 5 \/ n = 6 \/ n = 7 \/ n = 8 \/ n = 9 \/ n = 10 \/ n = 11 \/
    n = 12 \/ n = 13 \/ n = 14 \/ n = 15)%N) by lia.
  repeat match type of E with _ \/ _ => destruct E as [->|E]; [reflexivity|] end. subst. reflexivity.
Qed.

Lemma hex4_value n : (n < 65536)%N ->
  hex4 (hex_digit (n / 4096 mod 16)) (hex_digit (n / 256 mod 16)) (hex_digit (n / 16 mod 16)) (hex_digit (n mod 16)) = Some n.
Proof.
  intros H. unfold hex4. rewrite !hex_digit_value by (apply N.mod_lt; discriminate). f_equal. lia.
Qed.

(** What follows is no escaped low surrogate. *)
Definition no_low (r : pystr) : Prop :=
  forall a b c d r3, r = backslash :: 117%N :: a :: b :: c :: d :: r3 -> exists y, hex4 a b c d = Some y /\ is_low y = false.

Lemma scan_u' a b c d n r : hex4 a b c d = Some n -> is_high n = false \/ no_low r ->
  scan_string (backslash :: 117%N :: a :: b :: c :: d :: r) = then_ n (scan_string r).
Proof.
  intros E L.
  change (match hex4 a b c d with
          | None => None
          | Some x =>
              match r with
              | p :: q :: a' :: b' :: c' :: d' :: r3 =>
                  if is_high x && (p =? backslash)%N && (q =? 117)%N then
                    match hex4 a' b' c' d' with
                    | None => None
                    | Some y =>
                        if is_low y
                        then then_ (65536 + (x - 55296) * 1024 + (y - 56320))%N (scan_string r3)
                        else then_ x (scan_string r)
                    end
                  else then_ x (scan_string r)
              | _ => then_ x (scan_string r)
              end
          end = then_ n (scan_string r)).
  rewrite E. destruct r as [|p [|q [|a' [|b' [|c' [|d' r3]]]]]]; try reflexivity.
  destruct (is_high n) eqn:Hn; [|reflexivity]. destruct (N.eqb_spec p backslash) as [->|]; [|reflexivity].
  destruct (N.eqb_spec q 117) as [->|]; [|reflexivity]. cbn [andb].
  destruct L as [L|L]; [discriminate|]. destruct (L a' b' c' d' r3 eq_refl) as [y [E2 E3]]. rewrite E2, E3. reflexivity.
Qed.

Lemma scan_u n r : (n < 65536)%N -> is_high n = false \/ no_low r ->
  scan_string (u_escape n ++ r) = then_ n (scan_string r).
Proof. intros H L. unfold u_escape, hex4_text. cbn [app]. apply scan_u'; [apply hex4_value; exact H|exact L]. Qed.

Lemma scan_pair' a b c d a' b' c' d' n m r : hex4 a b c d = Some n -> hex4 a' b' c' d' = Some m ->
  (55296 <= n <= 56319)%N -> (56320 <= m <= 57343)%N ->
  scan_string (backslash :: 117%N :: a :: b :: c :: d :: backslash :: 117%N :: a' :: b' :: c' :: d' :: r)
    = then_ (65536 + (n - 55296) * 1024 + (m - 56320))%N (scan_string r).
Proof.
  intros E E2 H K.
  change (match hex4 a b c d with
          | None => None
          | Some x =>
              if is_high x && (backslash =? backslash)%N && (117 =? 117)%N then
                match hex4 a' b' c' d' with
                | None => None
                | Some y =>
                    if is_low y
                    then then_ (65536 + (x - 55296) * 1024 + (y - 56320))%N (scan_string r)
                    else then_ x (scan_string (backslash :: 117%N :: a' :: b' :: c' :: d' :: r))
                end
              else then_ x (scan_string (backslash :: 117%N :: a' :: b' :: c' :: d' :: r))
          end = then_ (65536 + (n - 55296) * 1024 + (m - 56320))%N (scan_string r)).
  rewrite E, E2. unfold is_high, is_low.
  rewrite (proj2 (N.leb_le 55296 n)), (proj2 (N.leb_le n 56319)), (proj2 (N.leb_le 56320 m)), (proj2 (N.leb_le m 57343)) by lia.
  rewrite !N.eqb_refl. reflexivity.
Qed.

Lemma scan_pair n m r : (55296 <= n <= 56319)%N -> (56320 <= m <= 57343)%N ->
  scan_string (u_escape n ++ u_escape m ++ r) = then_ (65536 + (n - 55296) * 1024 + (m - 56320))%N (scan_string r).
Proof.
  intros H K. unfold u_escape, hex4_text. cbn [app]. apply scan_pair'; try assumption; apply hex4_value; lia.
Qed.

Lemma no_low_digits x1 x2 x3 x4 n r : hex4 x1 x2 x3 x4 = Some n -> is_low n = false ->
  no_low (backslash :: 117%N :: x1 :: x2 :: x3 :: x4 :: r).
Proof. intros H L a b c d r3 E. injection E as <- <- <- <- _. exists n. auto. Qed.

Lemma no_low_escape n r : (n < 65536)%N -> is_low n = false -> no_low (u_escape n ++ r).
Proof. intros H L. apply no_low_digits with n; [apply hex4_value; exact H|exact L]. Qed.

Lemma escape_no_low d r : ~ (56320 <= d <= 57343)%N -> (d <= 1114111)%N -> no_low (escape d ++ r).
Proof.
  intros H B. unfold escape.
  assert (X : forall x y l, y <> 117%N -> no_low (x :: y :: l)) by (intros x y l Hy a b c e r3 E; congruence).
  repeat match goal with
  | |- context [if (?x =? ?y)%N then _ else _] => destruct (N.eqb_spec x y) as [?|?]; [cbn [app]; apply X; discriminate|]
  end.
  destruct ((32 <=? d) && (d <=? 126))%N; [intros a b c e r3 E; cbn [app] in E; congruence|].
  destruct (N.ltb_spec d 65536) as [L|L].
  - apply no_low_escape; [exact L|].
    unfold is_low. destruct (N.leb_spec 56320 d), (N.leb_spec d 57343); cbn; try reflexivity. lia.
  - rewrite <- app_assoc. apply no_low_escape; [lia|].
    unfold is_low. destruct (N.leb_spec 56320 (55296 + (d - 65536) / 1024)); cbn [andb]; [lia|reflexivity].
Qed.

Lemma quote_no_low r : no_low (quote :: r).
Proof. intros a b c d r3 E. discriminate. Qed.

Lemma scan_string_text s rest : good_string s ->
  scan_string (flat_map escape s ++ quote :: rest) = Some (s, rest).
Proof.
  intros [B N]. induction s as [|c s IH].
  - cbn [flat_map app scan_string]. rewrite N.eqb_refl. reflexivity.
  - assert (IH' : scan_string (flat_map escape s ++ quote :: rest) = Some (s, rest)).
    { apply IH; [intros x I; apply B; right; exact I|]. destruct s as [|d s]; [exact I|]. exact (proj2 N). }
    cbn [flat_map]. rewrite <- app_assoc. set (t := flat_map escape s ++ quote :: rest) in *.
    assert (Bc : (c <= 1114111)%N) by (apply B; left; reflexivity).
    assert (L : is_high c = false \/ no_low t).
    { destruct (is_high c) eqn:Hc; [right|left; reflexivity]. subst t. destruct s as [|d s]; [apply quote_no_low|].
      cbn [flat_map]. rewrite <- app_assoc. apply escape_no_low; [|apply B; right; left; reflexivity].
      destruct N as [N _]. intros K. apply N. split; [|exact K]. unfold is_high in Hc.
      apply andb_true_iff in Hc. destruct Hc as [H1 H2]. apply N.leb_le in H1, H2. lia. }
    clearbody t. unfold escape.
    destruct (N.eqb_spec c quote) as [->|Q]; [change (then_ quote (scan_string t) = Some (quote :: s, rest)); rewrite IH'; reflexivity|].
    destruct (N.eqb_spec c backslash) as [->|Q2]; [change (then_ backslash (scan_string t) = Some (backslash :: s, rest)); rewrite IH'; reflexivity|].
    destruct (N.eqb_spec c 10) as [->|Q3]; [change (then_ 10%N (scan_string t) = Some (10%N :: s, rest)); rewrite IH'; reflexivity|].
    destruct (N.eqb_spec c 13) as [->|Q4]; [change (then_ 13%N (scan_string t) = Some (13%N :: s, rest)); rewrite IH'; reflexivity|].
    destruct (N.eqb_spec c 9) as [->|Q5]; [change (then_ 9%N (scan_string t) = Some (9%N :: s, rest)); rewrite IH'; reflexivity|].
    destruct (N.eqb_spec c 12) as [->|Q6]; [change (then_ 12%N (scan_string t) = Some (12%N :: s, rest)); rewrite IH'; reflexivity|].
    destruct (N.eqb_spec c 8) as [->|Q7]; [change (then_ 8%N (scan_string t) = Some (8%N :: s, rest)); rewrite IH'; reflexivity|].
    destruct ((32 <=? c) && (c <=? 126))%N eqn:P.
    + apply andb_true_iff in P. destruct P as [P1 P2]. apply N.leb_le in P1, P2.
      cbn [app scan_string]. rewrite (proj2 (N.eqb_neq _ _) Q), (proj2 (N.eqb_neq _ _) Q2).
      rewrite (proj2 (N.ltb_ge _ _)) by exact P1. rewrite IH'. reflexivity.
    + destruct (N.ltb_spec c 65536) as [S|S].
      * rewrite scan_u by assumption. rewrite IH'. reflexivity.
      * rewrite <- app_assoc, scan_pair by lia. rewrite IH'. cbn [then_]. do 3 f_equal. lia.
Qed.

(** ** Numbers *)

Definition number_end (r : pystr) : Prop :=
  match r with [] => True | c :: _ => is_digit c = false /\ c <> 46%N /\ c <> 101%N /\ c <> 69%N end.

Lemma span_digits_app d r : (forall c, In c d -> digit_char c) ->
  match r with [] => True | c :: _ => is_digit c = false end -> span_digits (d ++ r) = (d, r).
Proof.
  intros D E. induction d as [|c d IH].
  - cbn [app]. destruct r as [|c r]; [reflexivity|]. cbn [span_digits]. rewrite E. reflexivity.
  - cbn [app span_digits]. rewrite digit_true by (apply D; left; reflexivity).
    rewrite IH by (intros x I; apply D; right; exact I). reflexivity.
Qed.

Lemma scan_nat_decimal i r : decimal i -> match r with [] => True | c :: _ => is_digit c = false end ->
  scan_nat (i ++ r) = Some (i, r).
Proof.
  intros [->|[[N D] H]] E; [reflexivity|].
  destruct i as [|c i]; [congruence|]. cbn [hd] in H. unfold scan_nat. cbn [app].
  rewrite (proj2 (N.eqb_neq _ _) H). rewrite digit_true by (apply D; left; reflexivity).
  change (c :: i ++ r) with ((c :: i) ++ r). rewrite span_digits_app by assumption. reflexivity.
Qed.

Lemma decimal_head i : decimal i -> exists c r, i = c :: r /\ digit_char c.
Proof.
  intros [->|[[N D] _]]; [exists 48%N, []; split; [reflexivity|unfold digit_char; lia]|].
  destruct i as [|c r]; [congruence|]. exists c, r. split; [reflexivity|]. apply D. left. reflexivity.
Qed.

Lemma scan_integer_signed sign i r : sign = [] \/ sign = u "-" -> decimal i ->
  match r with [] => True | c :: _ => is_digit c = false end -> scan_integer (sign ++ i ++ r) = Some (sign ++ i, r).
Proof.
  intros [->| ->] D E.
  - cbn [app]. destruct (decimal_head i D) as [c [t [-> Hc]]]. unfold scan_integer. cbn [app].
    destruct (N.eqb_spec c 45) as [->|_]; [unfold digit_char in Hc; lia|].
    change (c :: t ++ r) with ((c :: t) ++ r). apply scan_nat_decimal; assumption.
  - change (u "-") with [45%N]. cbn [app]. unfold scan_integer. rewrite N.eqb_refl, scan_nat_decimal by assumption. reflexivity.
Qed.

Lemma digit_false c : ~ digit_char c -> is_digit c = false.
Proof.
  intros H. unfold is_digit, digit_char in *. destruct (N.leb_spec 48 c), (N.leb_spec c 57); try reflexivity. exfalso. apply H. lia.
Qed.

Lemma scan_fraction_end r : match r with [] => True | c :: _ => c <> 46%N end -> scan_fraction r = ([], r).
Proof. destruct r as [|c r]; [reflexivity|]. intros H. cbn. rewrite (proj2 (N.eqb_neq _ _) H). reflexivity. Qed.

Lemma scan_exponent_end r : match r with [] => True | c :: _ => c <> 101%N /\ c <> 69%N end -> scan_exponent r = ([], r).
Proof.
  destruct r as [|c r]; [reflexivity|]. intros [H K]. unfold scan_exponent.
  rewrite (proj2 (N.eqb_neq _ _) H), (proj2 (N.eqb_neq _ _) K). reflexivity.
Qed.

Lemma to_uint_head p : match Pos.to_uint p with Decimal.D0 _ | Decimal.Nil => False | _ => True end.
Proof.
  pose proof (DecimalN.Unsigned.to_of (Pos.to_uint p)) as E.
  assert (F : N.of_uint (Pos.to_uint p) = Npos p) by (apply DecimalPos.Unsigned.of_to).
  rewrite F in E. cbn [N.to_uint] in E.
  assert (X : forall d x, Decimal.nzhead d = Decimal.D0 x -> False).
  { induction d; cbn; try discriminate. intros x; apply IHd. }
  destruct (Pos.to_uint p) as [|d| | | | | | | | | ] eqn:U; try exact I.
  - apply (to_uint_not_nil p). exact U.
  - unfold Decimal.unorm in E. destruct (Decimal.nzhead (Decimal.D0 d)) eqn:Z; try discriminate.
    + injection E as E. subst d. discriminate.
    + exact (X _ _ Z).
Qed.

Lemma str_int_shape z : exists sign i, str_int z = sign ++ i /\ (sign = [] \/ sign = u "-") /\ decimal i.
Proof.
  assert (D : forall p, decimal (uint_chars (Pos.to_uint p))).
  { intros p. right. split; [split|].
    - pose proof (to_uint_head p) as H. destruct (Pos.to_uint p); try contradiction; discriminate.
    - intros c I. exact (uint_chars_digits _ _ I).
    - pose proof (to_uint_head p) as H. destruct (Pos.to_uint p); try contradiction; cbn; lia. }
  destruct z as [|p|p].
  - exists [], (u "0"). split; [reflexivity|]. split; [left; reflexivity|left; reflexivity].
  - exists [], (uint_chars (Pos.to_uint p)). split; [reflexivity|]. split; [left; reflexivity|apply D].
  - exists (u "-"), (uint_chars (Pos.to_uint p)). split; [reflexivity|]. split; [right; reflexivity|apply D].
Qed.

Lemma number_end_digit r : number_end r -> match r with [] => True | c :: _ => is_digit c = false end.
Proof. destruct r; [trivial|]. intros H; apply H. Qed.

Lemma scan_number_int z rest : number_end rest -> scan_number (str_int z ++ rest) = Some (JInt z, rest).
Proof.
  intros E. destruct (str_int_shape z) as [sign [i [S [G D]]]]. unfold scan_number.
  assert (Q : scan_integer (str_int z ++ rest) = Some (str_int z, rest)).
  { rewrite S, <- app_assoc. apply scan_integer_signed; try assumption. now apply number_end_digit. }
  rewrite Q. rewrite scan_fraction_end, scan_exponent_end; [cbn [app]; rewrite int_of_str_int; reflexivity| |];
  destruct rest; try exact I; split || idtac; apply E.
Qed.

Lemma scan_number_float r rest : finite_repr r -> number_end rest ->
  scan_number (r ++ rest) = Some (JFloat (Finite r), rest).
Proof.
  intros [sign [i [f [e [-> [S [D [F [X N]]]]]]]]] E.
  assert (He : match e ++ rest with [] => True | c :: _ => is_digit c = false /\ c <> 46%N end).
  { destruct X as [->|[g [d [-> _]]]]; [|cbn; split; [reflexivity|discriminate]].
    cbn [app]. destruct rest; [exact I|]. split; apply E. }
  assert (Hf : match f ++ e ++ rest with [] => True | c :: _ => is_digit c = false end).
  { destruct F as [->|[d [-> _]]]; [|reflexivity]. cbn [app]. destruct (e ++ rest); [exact I|apply He]. }
  unfold scan_number. rewrite <- !app_assoc. rewrite scan_integer_signed by assumption.
  assert (Q1 : scan_fraction (f ++ e ++ rest) = (f, e ++ rest)).
  { destruct F as [->|[d [-> [Dn Dd]]]].
    - cbn [app]. apply scan_fraction_end. destruct (e ++ rest); [exact I|apply He].
    - change (u "." ++ d) with (46%N :: d). cbn [app]. unfold scan_fraction. rewrite N.eqb_refl.
      rewrite span_digits_app; [|exact Dd|destruct (e ++ rest); [exact I|apply He]].
      destruct d; [congruence|reflexivity]. }
  rewrite Q1.
  assert (Q2 : scan_exponent (e ++ rest) = (e, rest)).
  { destruct X as [->|[g [d [-> [G [Dn Dd]]]]]].
    - apply scan_exponent_end. destruct rest; [exact I|]. split; apply E.
    - change (u "e") with [101%N]. cbn [app]. unfold scan_exponent. rewrite N.eqb_refl. cbn [orb].
      assert (Q : scan_sign ((g ++ d) ++ rest) = (g, d ++ rest)).
      { destruct G as [->|[->| ->]]; try reflexivity. cbn [app]. destruct d as [|c d]; [congruence|]. cbn [app scan_sign].
        assert (Hc : digit_char c) by (apply Dd; left; reflexivity). unfold digit_char in Hc.
        destruct (N.eqb_spec c 43) as [->|_]; [lia|]. destruct (N.eqb_spec c 45) as [->|_]; [lia|]. reflexivity. }
      rewrite Q. rewrite span_digits_app; [|exact Dd|now apply number_end_digit].
      destruct d; [congruence|reflexivity]. }
  rewrite Q2. destruct (f ++ e) as [|c t] eqn:FE; [congruence|]. rewrite <- FE, <- app_assoc. reflexivity.
Qed.

(** ** Values *)

Lemma number_not_literal c r : digit_char c \/ c = 45%N ->
  after_literal (u "null") (c :: r) = None /\ after_literal (u "true") (c :: r) = None /\ after_literal (u "false") (c :: r) = None.
Proof.
  intros H. assert (c <> 110 /\ c <> 116 /\ c <> 102)%N as [A [B C]] by (unfold digit_char in H; lia).
  change (u "null") with (110%N :: u "ull"). change (u "true") with (116%N :: u "rue"). change (u "false") with (102%N :: u "alse").
  cbn [after_literal]. rewrite !(proj2 (N.eqb_neq _ _)) by congruence. auto.
Qed.

Lemma scan_scalar_number s r x : (exists c t, s = c :: t /\ (digit_char c \/ c = 45%N)) ->
  scan_number (s ++ r) = Some x -> scan_scalar (s ++ r) = Some x.
Proof.
  intros [c [t [-> H]]] E. cbn [app] in *. unfold scan_scalar.
  destruct (number_not_literal c (t ++ r) H) as [A [B C]]. rewrite A, B, C, E. reflexivity.
Qed.

Lemma str_int_head z : exists c t, str_int z = c :: t /\ (digit_char c \/ c = 45%N).
Proof.
  destruct (str_int_shape z) as [sign [i [-> [[->| ->] D]]]]; destruct (decimal_head i D) as [c [t [-> Hc]]].
  - exists c, t. auto.
  - exists 45%N, (c :: t). auto.
Qed.

Lemma float_head r : finite_repr r -> exists c t, r = c :: t /\ (digit_char c \/ c = 45%N).
Proof.
  intros [sign [i [f [e [-> [[->| ->] [D _]]]]]]]; destruct (decimal_head i D) as [c [t [-> Hc]]].
  - exists c, (t ++ f ++ e). auto.
  - exists 45%N, ((c :: t) ++ f ++ e). auto.
Qed.

(** Characters a value may begin with. *)
Definition opens (c : N) : Prop := is_ws c = false /\ c <> 93%N /\ c <> 125%N.

Lemma number_opens c : digit_char c \/ c = 45%N -> opens c /\ c <> quote /\ c <> 123%N /\ c <> 91%N.
Proof.
  intros H. unfold opens, is_ws, digit_char, quote in *.
  destruct (N.eqb_spec c 32), (N.eqb_spec c 9), (N.eqb_spec c 10), (N.eqb_spec c 13); cbn; lia.
Qed.

Lemma text_head j : good_json j -> exists c r, text j = c :: r /\ opens c.
Proof.
  destruct j as [|[]|z|[r| |[]]|s|l|l]; intros G;
    try (eexists _, _; split; [reflexivity|split; [reflexivity|split; discriminate]]).
  - destruct (str_int_head z) as [c [t [E H]]]. exists c, t. split; [exact E|]. now apply number_opens.
  - destruct (float_head r G) as [c [t [E H]]]. exists c, t. split; [exact E|]. now apply number_opens.
Qed.

Fixpoint cost (j : json) : nat :=
  match j with
  | JArr l => S ((fix sum l := match l with [] => 0 | x :: r => S (cost x + sum r) end) l)
  | JObj l => S ((fix sum l := match l with [] => 0 | p :: r => S (cost (snd p) + sum r) end) l)
  | _ => 1
  end.
Fixpoint items_cost (l : list json) : nat := match l with [] => 0 | x :: r => S (cost x + items_cost r) end.
Fixpoint pairs_cost (l : list (pystr * json)) : nat := match l with [] => 0 | p :: r => S (cost (snd p) + pairs_cost r) end.
Lemma cost_arr l : cost (JArr l) = S (items_cost l).
Proof. reflexivity. Qed.
Lemma cost_obj l : cost (JObj l) = S (pairs_cost l).
Proof. reflexivity. Qed.

Definition pair_text (p : pystr * json) : pystr := string_text (fst p) ++ u ": " ++ text (snd p).

Lemma scan_items_eq n s : scan_items (S n) s =
  match scan n s with
  | None => None
  | Some (x, r) =>
      match skip_ws r with
      | [] => None
      | d :: r1 =>
          if (d =? 93)%N then Some ([x], r1)
          else if (d =? 44)%N then
            match scan_items n (skip_ws r1) with Some (l, rest) => Some (x :: l, rest) | None => None end
          else None
      end
  end.
Proof. reflexivity. Qed.

Lemma skip_ws_id c r : is_ws c = false -> skip_ws (c :: r) = c :: r.
Proof. intros H. cbn [skip_ws]. rewrite H. reflexivity. Qed.

Lemma join_text_cons x y l : join_text (x :: y :: l) = x ++ u ", " ++ join_text (y :: l).
Proof. reflexivity. Qed.

Definition reads (j : json) : Prop :=
  forall n rest, cost j <= n -> number_end rest -> scan n (text j ++ rest) = Some (j, rest).

Lemma scan_items_text l : Forall (fun j => good_json j /\ reads j) l -> l <> [] -> forall n rest, items_cost l <= n ->
  scan_items n (join_text (map text l) ++ 93%N :: rest) = Some (l, rest).
Proof.
  induction l as [|x l IH]; intros F NE n rest C; [congruence|]. inversion F as [|? ? [G R] Fr]; subst.
  cbn [items_cost] in C. destruct n as [|n]; [lia|]. rewrite scan_items_eq.
  destruct l as [|y l].
  - cbn [map join_text]. rewrite R; [|lia|cbn; repeat split; discriminate]. cbn. reflexivity.
  - cbn [map]. rewrite join_text_cons, <- !app_assoc. rewrite R; [|lia|cbn; repeat split; discriminate].
    change (u ", ") with [44%N; 32%N]. cbn [app]. rewrite skip_ws_id by reflexivity. cbn [N.eqb Pos.eqb].
    assert (Q : skip_ws (32%N :: join_text (map text (y :: l)) ++ 93%N :: rest) = join_text (map text (y :: l)) ++ 93%N :: rest).
    { cbn [skip_ws]. change (is_ws 32) with true. cbn iota.
      assert (G2 : good_json y) by (inversion Fr as [|? ? [G2 _] _]; assumption).
      destruct (text_head y G2) as [c [r [E [O _]]]]. cbn [map]. destruct l as [|z l].
      - cbn [map join_text]. rewrite E. cbn [app]. now apply skip_ws_id.
      - cbn [map]. rewrite join_text_cons, E. cbn [app]. now apply skip_ws_id. }
    cbn [map] in Q. rewrite Q. change (text y :: map text l) with (map text (y :: l)). rewrite IH; [reflexivity|exact Fr|discriminate|lia].
Qed.

Lemma scan_pairs_eq n r : scan_pairs (S n) (quote :: r) =
  match scan_string r with
  | None => None
  | Some (k, r1) =>
      match skip_ws r1 with
      | [] => None
      | d :: r2 =>
          if (d =? 58)%N then
            match scan n (skip_ws r2) with
            | None => None
            | Some (x, r3) =>
                match skip_ws r3 with
                | [] => None
                | e :: r4 =>
                    if (e =? 125)%N then Some ([(k, x)], r4)
                    else if (e =? 44)%N then
                      match scan_pairs n (skip_ws r4) with
                      | Some (l, rest) => Some ((k, x) :: l, rest)
                      | None => None
                      end
                    else None
                end
            end
          else None
      end
  end.
Proof. reflexivity. Qed.

Lemma string_text_app s r : string_text s ++ r = quote :: flat_map escape s ++ quote :: r.
Proof. unfold string_text. cbn [app]. rewrite <- app_assoc. reflexivity. Qed.

Lemma scan_pairs_text l : Forall (fun p => (good_string (fst p) /\ good_json (snd p)) /\ reads (snd p)) l -> l <> [] ->
  forall n rest, pairs_cost l <= n ->
  scan_pairs n (join_text (map pair_text l) ++ 125%N :: rest) = Some (l, rest).
Proof.
  induction l as [|[k x] l IH]; intros F NE n rest C; [congruence|]. inversion F as [|? ? [[GS G] R] Fr]; subst.
  cbn [fst snd pairs_cost] in *. destruct n as [|n]; [lia|].
  assert (K : forall t, number_end t -> scan_pairs (S n) (pair_text (k, x) ++ t) =
              match skip_ws t with
                | [] => None
                | e :: r4 =>
                    if (e =? 125)%N then Some ([(k, x)], r4)
                    else if (e =? 44)%N then
                      match scan_pairs n (skip_ws r4) with
                      | Some (l, rest) => Some ((k, x) :: l, rest)
                      | None => None
                      end
                    else None
                end).
  { intros t T. unfold pair_text. cbn [fst snd]. rewrite <- !app_assoc, string_text_app, scan_pairs_eq, scan_string_text by exact GS.
    change (u ": ") with [58%N; 32%N]. cbn [app]. rewrite skip_ws_id by reflexivity. cbn [N.eqb Pos.eqb].
    cbn [skip_ws]. change (is_ws 32) with true. cbn iota.
    destruct (text_head x G) as [c [r [E [O _]]]].
    assert (Q : skip_ws (text x ++ t) = text x ++ t) by (rewrite E; cbn [app]; now apply skip_ws_id).
    rewrite Q, R by (lia || exact T). reflexivity. }
  destruct l as [|y l].
  - cbn [map join_text]. rewrite K by (cbn; repeat split; discriminate). reflexivity.
  - cbn [map]. rewrite join_text_cons, <- !app_assoc. rewrite K by (cbn; repeat split; discriminate).
    change (u ", ") with [44%N; 32%N]. cbn [app]. rewrite skip_ws_id by reflexivity. cbn [N.eqb Pos.eqb].
    assert (Q : skip_ws (32%N :: join_text (map pair_text (y :: l)) ++ 125%N :: rest) = join_text (map pair_text (y :: l)) ++ 125%N :: rest).
    { cbn [skip_ws]. change (is_ws 32) with true. cbn iota. cbn [map]. destruct l as [|z l]; reflexivity. }
    cbn [map] in Q. rewrite Q. change (pair_text y :: map pair_text l) with (map pair_text (y :: l)). rewrite IH; [reflexivity|exact Fr|discriminate|lia].
Qed.

Lemma scan_eq n c r : scan (S n) (c :: r) =
  (if (c =? quote)%N then match scan_string r with Some (x, rest) => Some (JStr x, rest) | None => None end
          else if (c =? 123)%N then
            match skip_ws r with
            | [] => None
            | d :: r1 =>
                if (d =? 125)%N then Some (JObj [], r1)
                else match scan_pairs n (d :: r1) with Some (l, rest) => Some (JObj l, rest) | None => None end
            end
          else if (c =? 91)%N then
            match skip_ws r with
            | [] => None
            | d :: r1 =>
                if (d =? 93)%N then Some (JArr [], r1)
                else match scan_items n (d :: r1) with Some (l, rest) => Some (JArr l, rest) | None => None end
            end
          else scan_scalar (c :: r)).
Proof. reflexivity. Qed.

Lemma scan_scalar_head n c r : c <> quote -> c <> 123%N -> c <> 91%N -> scan (S n) (c :: r) = scan_scalar (c :: r).
Proof. intros A B C. rewrite scan_eq, !(proj2 (N.eqb_neq _ _)) by assumption. reflexivity. Qed.

Lemma scan_number_text s r x n : (exists c t, s = c :: t /\ (digit_char c \/ c = 45%N)) ->
  scan_number (s ++ r) = Some x -> scan (S n) (s ++ r) = Some x.
Proof.
  intros H E. assert (H' := H). destruct H' as [c [t [-> D]]]. destruct (number_opens c D) as [_ [A [B C]]].
  cbn [app]. rewrite scan_scalar_head by assumption. exact (scan_scalar_number (c :: t) r x H E).
Qed.

Theorem scan_text j : good_json j -> reads j.
Proof.
  induction j as [|b|z|f|s|l IH|l IH] using json_ind'; intros G n rest C E.
  - destruct n; [cbn in C; lia|reflexivity].
  - destruct n; [cbn in C; lia|]. destruct b; reflexivity.
  - destruct n; [cbn in C; lia|]. apply scan_number_text; [apply str_int_head|]. apply scan_number_int. exact E.
  - destruct n; [cbn in C; lia|]. destruct f as [r| |[]]; try reflexivity.
    apply scan_number_text; [apply float_head; exact G|]. apply scan_number_float; assumption.
  - destruct n; [cbn in C; lia|]. cbn [text]. rewrite string_text_app, scan_eq, N.eqb_refl, scan_string_text by exact G. reflexivity.
  - rewrite cost_arr in C. destruct n as [|n]; [lia|]. apply good_arr in G.
    cbn [text]. rewrite <- !app_assoc. change (u "[") with [91%N]. change (u "]") with [93%N]. cbn [app]. rewrite scan_eq.
    change (91 =? quote)%N with false. cbn [N.eqb Pos.eqb].
    assert (F : Forall (fun j => good_json j /\ reads j) l).
    { rewrite Forall_forall in *. intros x I. split; [auto|]. apply IH; auto. }
    destruct l as [|x l]; [reflexivity|].
    assert (Q : exists c t, join_text (map text (x :: l)) ++ 93%N :: rest = c :: t /\ opens c).
    { inversion F as [|? ? [Gx _] _]; subst. destruct (text_head x Gx) as [c [t [T O]]]. cbn [map]. destruct l as [|y l].
      - cbn [map join_text]. rewrite T. exists c, (t ++ 93%N :: rest). auto.
      - cbn [map]. rewrite join_text_cons, T. exists c. eexists. split; [reflexivity|exact O]. }
    destruct Q as [c [t [Q [O1 [O2 O3]]]]]. rewrite Q, skip_ws_id by exact O1. rewrite (proj2 (N.eqb_neq _ _) O2), <- Q.
    rewrite scan_items_text; [reflexivity|exact F|discriminate|lia].
  - rewrite cost_obj in C. destruct n as [|n]; [lia|]. apply good_obj in G.
    cbn [text]. rewrite <- !app_assoc. change (u "{") with [123%N]. change (u "}") with [125%N]. cbn [app]. rewrite scan_eq.
    change (123 =? quote)%N with false. cbn [N.eqb Pos.eqb].
    change (@map (pystr * json) (list N) (fun p => string_text (fst p) ++ u ": " ++ text (snd p))) with (@map (pystr * json) pystr pair_text).
    assert (F : Forall (fun p => (good_string (fst p) /\ good_json (snd p)) /\ reads (snd p)) l).
    { rewrite Forall_forall in *. intros x I. split; [auto|]. apply IH; [exact I|]. apply (G x I). }
    destruct l as [|x l]; [reflexivity|].
    assert (Q : exists t, join_text (map pair_text (x :: l)) ++ 125%N :: rest = quote :: t).
    { cbn [map]. destruct l as [|y l]; eexists; reflexivity. }
    destruct Q as [t Q]. rewrite Q, skip_ws_id by reflexivity. change (quote =? 125)%N with false. cbn iota. rewrite <- Q.
    rewrite scan_pairs_text; [reflexivity|exact F|discriminate|lia].
Qed.

Lemma length_join l : length (join_text l) + 2 >= 2 * length l + list_sum (map (@length N) l).
Proof.
  induction l as [|x [|y l] IH]; [cbn; lia|cbn; lia|].
  rewrite join_text_cons, !app_length. change (length (u ", ")) with 2. cbn [length map list_sum fold_right] in *. lia.
Qed.

Lemma text_nonempty j : good_json j -> 1 <= length (text j).
Proof. intros G. destruct (text_head j G) as [c [r [E _]]]. rewrite E. cbn. lia. Qed.

Lemma cost_text j : good_json j -> cost j <= length (text j).
Proof.
  induction j as [|b|z|f|s|l IH|l IH] using json_ind'; intros G; try (apply text_nonempty; exact G).
  - rewrite cost_arr. apply good_arr in G. cbn [text]. rewrite !app_length. cbn [length u map list_ascii_of_string].
    pose proof (length_join (map text l)) as J. rewrite map_length, map_map in J.
    assert (S : items_cost l <= length l + list_sum (map (fun x => length (text x)) l)).
    { clear J. induction l as [|x l IHl]; [cbn; lia|]. inversion IH; subst. inversion G; subst. unfold list_sum in *; cbn [items_cost length map fold_right] in *.
      specialize (IHl ltac:(assumption) ltac:(assumption)). specialize (H1 ltac:(assumption)). lia. }
    destruct l; [cbn; lia|]. cbn [length] in *. lia.
  - rewrite cost_obj. apply good_obj in G. cbn [text]. rewrite !app_length. 
    change (@map (pystr * json) (list N) (fun p => string_text (fst p) ++ u ": " ++ text (snd p))) with (@map (pystr * json) pystr pair_text).
    change (length (u "{")) with 1. change (length (u "}")) with 1.
    pose proof (length_join (map pair_text l)) as J. rewrite map_length, map_map in J.
    assert (S : pairs_cost l <= length l + list_sum (map (fun x => length (pair_text x)) l)).
    { clear J. induction l as [|x l IHl]; [cbn; lia|]. inversion IH; subst. inversion G as [|? ? [G1 G2] G3]; subst. unfold list_sum in *; cbn [pairs_cost length map fold_right] in *.
      specialize (IHl ltac:(assumption) ltac:(assumption)). specialize (H1 ltac:(assumption)).
      unfold pair_text at 1. rewrite !app_length. lia. }
    destruct l; [cbn; lia|]. cbn [length] in *. lia.
Qed.

(** ** What is written is read, also with white space after it. *)
Theorem loads_text j w : good_json j -> (forall c, In c w -> is_ws c = true) -> loads (text j ++ w) = Some j.
Proof.
  intros G W. unfold loads. destruct (text_head j G) as [c [r [E [O _]]]].
  assert (Q : skip_ws (text j ++ w) = text j ++ w) by (rewrite E; cbn [app]; now apply skip_ws_id).
  rewrite Q, scan_text.
  - assert (S : skip_ws w = []); [|rewrite S; reflexivity].
    clear Q. induction w as [|d w IH]; [reflexivity|]. cbn [skip_ws]. rewrite W by (left; reflexivity). apply IH.
    intros x I. apply W. right. exact I.
  - exact G.
  - pose proof (cost_text j G). rewrite app_length. lia.
  - destruct w as [|d w]; [exact I|]. assert (Wd := W d (or_introl eq_refl)). unfold is_ws in Wd. cbn.
    repeat rewrite orb_true_iff in Wd. rewrite !N.eqb_eq in Wd.
    destruct Wd as [[[->| ->]| ->]| ->]; repeat split; try reflexivity; discriminate.
Qed.

(** ** A text takes one line: every character is printable ASCII. *)

Definition printable (c : N) : Prop := (32 <= c <= 126)%N.

Lemma hex_digit_printable n : (n < 16)%N -> printable (hex_digit n).
Proof. intros H. unfold hex_digit, printable. destruct (N.ltb_spec n 10); lia. Qed.

Lemma u_escape_printable n c : In c (u_escape n) -> printable c.
Proof.
  unfold u_escape, hex4_text. intros I.
  repeat destruct I as [<-|I]; try destruct I; try (apply hex_digit_printable; apply N.mod_lt; discriminate);
    unfold printable, backslash; lia.
Qed.

Lemma escape_printable x c : In c (escape x) -> printable c.
Proof.
  unfold escape. intros I.
  repeat match type of I with
  | In _ (if (?x =? ?y)%N then _ else _) =>
      destruct (x =? y)%N; [repeat destruct I as [<-|I]; try destruct I; unfold printable, backslash, quote; lia|]
  end.
  destruct ((32 <=? x) && (x <=? 126))%N eqn:P.
  { destruct I as [<-|[]]. apply andb_true_iff in P. destruct P as [A B]. apply N.leb_le in A, B. unfold printable. lia. }
  destruct (x <? 65536)%N; [exact (u_escape_printable _ _ I)|]. apply in_app_or in I. destruct I as [I|I]; exact (u_escape_printable _ _ I).
Qed.

Lemma string_text_printable s c : In c (string_text s) -> printable c.
Proof.
  unfold string_text. intros [<-|I]; [unfold printable, quote; lia|]. apply in_app_or in I. destruct I as [I|[<-|[]]]; [|unfold printable, quote; lia].
  apply in_flat_map in I. destruct I as [x [_ I]]. exact (escape_printable _ _ I).
Qed.

Lemma finite_repr_printable r c : finite_repr r -> In c r -> printable c.
Proof.
  intros [sign [i [f [e [-> [S [D [F [X _]]]]]]]]] I.
  assert (P : forall d, digits_only d -> In c d -> printable c) by (intros d [_ Hd] J; specialize (Hd c J); unfold printable; lia).
  repeat (apply in_app_or in I; destruct I as [I|I]).
  - destruct S as [->| ->]; [destruct I|]. destruct I as [<-|[]]. unfold printable. cbn. lia.
  - destruct D as [->|[D _]]; [destruct I as [<-|[]]; unfold printable; cbn; lia|]. exact (P i D I).
  - destruct F as [->|[d [-> D']]]; [destruct I|]. destruct I as [<-|I]; [unfold printable; cbn; lia|]. exact (P d D' I).
  - destruct X as [->|[g [d [-> [G D']]]]]; [destruct I|]. destruct I as [<-|I]; [unfold printable; cbn; lia|].
    change (In c (g ++ d)) in I. apply in_app_or in I. destruct I as [I|I]; [|exact (P d D' I)].
    destruct G as [->|[->| ->]]; [destruct I|destruct I as [<-|[]]; unfold printable; cbn; lia..].
Qed.

Lemma join_text_printable l c : (forall x, In x l -> In c x -> printable c) -> In c (join_text l) -> printable c.
Proof.
  induction l as [|x [|y l] IH]; intros H I; [destruct I|apply (H x); [left; reflexivity|exact I]|].
  rewrite join_text_cons in I. apply in_app_or in I. destruct I as [I|I]; [apply (H x); [left; reflexivity|exact I]|].
  apply in_app_or in I. destruct I as [I|I].
  - repeat destruct I as [<-|I]; try destruct I; unfold printable; cbn; lia.
  - apply IH; [|exact I]. intros z J. apply H. right. exact J.
Qed.

Theorem text_printable j : good_json j -> forall c, In c (text j) -> printable c.
Proof.
  assert (L : forall s, forallb (fun c => (32 <=? c) && (c <=? 126))%N (u s) = true -> forall c, In c (u s) -> printable c).
  { intros s H c I. rewrite forallb_forall in H. specialize (H c I). apply andb_true_iff in H. destruct H as [A B].
    apply N.leb_le in A, B. unfold printable. lia. }
  induction j as [|b|z|f|s|l IH|l IH] using json_ind'; intros G c I; cbn [text] in I.
  - (refine (L _ _ c I); reflexivity).
  - destruct b; (refine (L _ _ c I); reflexivity).
  - destruct (str_int_chars z c I) as [D| ->]; unfold printable; [unfold digit_char in D|]; lia.
  - destruct f as [r| |[]]; cbn [float_text] in I; try (refine (L _ _ c I); reflexivity). exact (finite_repr_printable r c G I).
  - exact (string_text_printable s c I).
  - apply good_arr in G. rewrite Forall_forall in IH, G. apply in_app_or in I. destruct I as [I|I]; [(refine (L _ _ c I); reflexivity)|].
    apply in_app_or in I. destruct I as [I|I]; [|(refine (L _ _ c I); reflexivity)].
    apply join_text_printable in I; [exact I|]. intros x J K. apply in_map_iff in J. destruct J as [j [<- J]]. exact (IH j J (G j J) c K).
  - apply good_obj in G. rewrite Forall_forall in IH, G. apply in_app_or in I. destruct I as [I|I]; [(refine (L _ _ c I); reflexivity)|].
    apply in_app_or in I. destruct I as [I|I]; [|(refine (L _ _ c I); reflexivity)].
    apply join_text_printable in I; [exact I|]. intros x J K. apply in_map_iff in J. destruct J as [p [<- J]].
    apply in_app_or in K. destruct K as [K|K]; [exact (string_text_printable _ c K)|].
    apply in_app_or in K. destruct K as [K|K]; [(refine (L _ _ c K); reflexivity)|]. exact (IH p J (proj2 (G p J)) c K).
Qed.

Lemma file_lines_line l r : (forall c, In c l -> printable c) -> file_lines (l ++ 10%N :: r) = (l ++ [10%N]) :: file_lines r.
Proof.
  intros P. induction l as [|c l IH]; [reflexivity|]. cbn [app file_lines].
  assert (Pc := P c (or_introl eq_refl)). unfold printable in Pc.
  destruct (N.eqb_spec c 10) as [->|_]; [lia|]. destruct (N.eqb_spec c 13) as [->|_]; [lia|].
  rewrite IH by (intros x I; apply P; right; exact I). reflexivity.
Qed.

Lemma file_lines_last l : l <> [] -> (forall c, In c l -> printable c) -> file_lines l = [l].
Proof.
  induction l as [|c l IH]; intros NE P; [congruence|]. cbn [file_lines].
  assert (Pc := P c (or_introl eq_refl)). unfold printable in Pc.
  destruct (N.eqb_spec c 10) as [->|_]; [lia|]. destruct (N.eqb_spec c 13) as [->|_]; [lia|].
  destruct l as [|d l]; [reflexivity|]. rewrite IH; [reflexivity|discriminate|]. intros x I. apply P. right. exact I.
Qed.

(** ** A text that is cut off is not read. *)

Lemma scan_pairs_eq' n c r : c <> quote -> scan_pairs (S n) (c :: r) = None.
Proof. intros H. cbn [scan_pairs]. rewrite (proj2 (N.eqb_neq _ _) H). reflexivity. Qed.

Lemma scan_mono n : forall s,
  (forall x, scan n s = Some x -> scan (S n) s = Some x) /\
  (forall x, scan_items n s = Some x -> scan_items (S n) s = Some x) /\
  (forall x, scan_pairs n s = Some x -> scan_pairs (S n) s = Some x).
Proof.
  induction n as [|n IH]; intros s; [repeat split; discriminate|].
  assert (IH1 : forall s x, scan n s = Some x -> scan (S n) s = Some x) by (intros; now apply IH).
  assert (IH2 : forall s x, scan_items n s = Some x -> scan_items (S n) s = Some x) by (intros; now apply IH).
  assert (IH3 : forall s x, scan_pairs n s = Some x -> scan_pairs (S n) s = Some x) by (intros; now apply IH).
  split; [|split]; intros x H.
  - destruct s as [|c r]; [discriminate|]. rewrite scan_eq in *.
    destruct (c =? quote)%N; [exact H|]. destruct (c =? 123)%N.
    { destruct (skip_ws r) as [|d r1]; [discriminate|]. destruct (d =? 125)%N; [exact H|].
      destruct (scan_pairs n (d :: r1)) as [[l rest]|] eqn:E; [|discriminate]. rewrite (IH3 _ _ E). exact H. }
    destruct (c =? 91)%N; [|exact H].
    destruct (skip_ws r) as [|d r1]; [discriminate|]. destruct (d =? 93)%N; [exact H|].
    destruct (scan_items n (d :: r1)) as [[l rest]|] eqn:E; [|discriminate]. rewrite (IH2 _ _ E). exact H.
  - rewrite scan_items_eq in *. destruct (scan n s) as [[y r]|] eqn:E; [|discriminate]. rewrite (IH1 _ _ E).
    destruct (skip_ws r) as [|d r1]; [discriminate|]. destruct (d =? 93)%N; [exact H|]. destruct (d =? 44)%N; [|exact H].
    destruct (scan_items n (skip_ws r1)) as [[l rest]|] eqn:E2; [|discriminate]. rewrite (IH2 _ _ E2). exact H.
  - destruct s as [|c r]; [discriminate|]. destruct (N.eq_dec c quote) as [->|C]; [|rewrite scan_pairs_eq' in H by exact C; discriminate].
    rewrite scan_pairs_eq in *. destruct (scan_string r) as [[k r1]|]; [|discriminate].
    destruct (skip_ws r1) as [|d r2]; [discriminate|]. destruct (d =? 58)%N; [|discriminate].
    destruct (scan n (skip_ws r2)) as [[y r3]|] eqn:E; [|discriminate]. rewrite (IH1 _ _ E).
    destruct (skip_ws r3) as [|e r4]; [discriminate|]. destruct (e =? 125)%N; [exact H|]. destruct (e =? 44)%N; [|exact H].
    destruct (scan_pairs n (skip_ws r4)) as [[l rest]|] eqn:E2; [|discriminate]. rewrite (IH3 _ _ E2). exact H.
Qed.

Lemma scan_more n m s x : n <= m -> scan n s = Some x -> scan m s = Some x.
Proof. induction 1; intros H1; [exact H1|]. apply scan_mono. auto. Qed.

Lemma skip_ws_app r q d t : skip_ws r = d :: t -> skip_ws (r ++ q) = d :: t ++ q.
Proof.
  induction r as [|c r IH]; [discriminate|]. cbn [skip_ws app]. destruct (is_ws c); [exact IH|]. intros [= <- <-]. reflexivity.
Qed.

Definition stops (r : pystr) : Prop := r <> [] /\ number_end r.

Lemma skip_ws_stops r d t : skip_ws r = d :: t -> d = 93%N \/ d = 125%N \/ d = 44%N -> stops r.
Proof.
  destruct r as [|c r]; [discriminate|]. intros E D. split; [discriminate|]. cbn [skip_ws] in E. destruct (is_ws c) eqn:W.
  - unfold is_ws in W. repeat rewrite orb_true_iff in W. rewrite !N.eqb_eq in W.
    destruct W as [[[->| ->]| ->]| ->]; cbn; repeat split; discriminate.
  - injection E as -> _. destruct D as [->|[->| ->]]; cbn; repeat split; discriminate.
Qed.

Lemma span_digits_more p a b q : span_digits p = (a, b) -> b <> [] -> span_digits (p ++ q) = (a, b ++ q).
Proof.
  revert a b. induction p as [|c p IH]; intros a b H N; cbn [span_digits app] in *; [injection H as <- <-; congruence|].
  destruct (is_digit c).
  - destruct (span_digits p) as [a' b'] eqn:E. injection H as <- <-. rewrite (IH a' b' eq_refl N). reflexivity.
  - injection H as <- <-. reflexivity.
Qed.

Lemma scan_nat_more p i r q : scan_nat p = Some (i, r) -> r <> [] -> scan_nat (p ++ q) = Some (i, r ++ q).
Proof.
  destruct p as [|c p]; [discriminate|]. unfold scan_nat. cbn [app]. destruct (c =? 48)%N; [intros [= <- <-]; reflexivity|].
  destruct (is_digit c); [|discriminate]. intros [= H] N. change (c :: p ++ q) with ((c :: p) ++ q). f_equal. now apply span_digits_more.
Qed.

Lemma scan_integer_more p i r q : scan_integer p = Some (i, r) -> r <> [] -> scan_integer (p ++ q) = Some (i, r ++ q).
Proof.
  destruct p as [|c p]; [discriminate|]. unfold scan_integer. cbn [app]. destruct (c =? 45)%N.
  - destruct (scan_nat p) as [[a b]|] eqn:E; [|discriminate]. intros [= <- <-] N. rewrite (scan_nat_more p a b q E N). reflexivity.
  - intros H N. change (c :: p ++ q) with ((c :: p) ++ q). now apply scan_nat_more.
Qed.

Lemma scan_fraction_more p f r q : scan_fraction p = (f, r) -> r <> [] -> (f = [] -> hd 0%N r <> 46%N) ->
  scan_fraction (p ++ q) = (f, r ++ q).
Proof.
  destruct p as [|c p]; unfold scan_fraction; cbn [app]; [intros [= <- <-]; congruence|].
  destruct (N.eqb_spec c 46) as [->|].
  - destruct (span_digits p) as [[|a1 a] b] eqn:E; intros [= <- <-] N H; [exfalso; apply H; reflexivity|].
    rewrite (span_digits_more p _ _ q E N). reflexivity.
  - intros [= <- <-]. reflexivity.
Qed.

Lemma scan_exponent_more p f r q : scan_exponent p = (f, r) -> r <> [] -> (f = [] -> hd 0%N r <> 101%N /\ hd 0%N r <> 69%N) ->
  scan_exponent (p ++ q) = (f, r ++ q).
Proof.
  destruct p as [|c p]; unfold scan_exponent; cbn [app]; [intros [= <- <-]; congruence|].
  destruct ((c =? 101) || (c =? 69))%N eqn:C.
  - destruct (scan_sign p) as [g r1] eqn:G. destruct (span_digits r1) as [[|a1 a] b] eqn:E; intros [= <- <-] N H.
    + exfalso. destruct (H eq_refl) as [H1 H2]. cbn [hd] in H1, H2. apply orb_true_iff in C. rewrite !N.eqb_eq in C. destruct C; congruence.
    + assert (G' : scan_sign (p ++ q) = (g, r1 ++ q)).
      { destruct p as [|d p]; cbn [scan_sign app] in *; [injection G as <- <-; discriminate|].
        destruct ((d =? 43) || (d =? 45))%N; injection G as <- <-; reflexivity. }
      rewrite G', (span_digits_more r1 _ _ q E N). reflexivity.
  - intros [= <- <-]. reflexivity.
Qed.

Lemma scan_exponent_nonempty p f r : scan_exponent p = (f, r) -> r <> [] -> p <> [].
Proof. destruct p; [|discriminate]. intros [= <- <-]. congruence. Qed.

Lemma scan_fraction_nonempty p f r : scan_fraction p = (f, r) -> r <> [] -> p <> [].
Proof. destruct p; [|discriminate]. intros [= <- <-]. congruence. Qed.

Lemma scan_number_more p x r q : scan_number p = Some (x, r) -> stops r -> scan_number (p ++ q) = Some (x, r ++ q).
Proof.
  unfold scan_number. intros H [N E].
  destruct (scan_integer p) as [[i r0]|] eqn:I; [|discriminate].
  destruct (scan_fraction r0) as [f r1] eqn:F. destruct (scan_exponent r1) as [e r2] eqn:X.
  assert (Er : r = r2 /\ (f ++ e = [] -> r = r0)).
  { destruct (f ++ e) eqn:FE.
    - destruct (int_of i); [|discriminate]. injection H as <- <-. apply app_eq_nil in FE. destruct FE as [-> ->].
      assert (r0 = r1); [|subst r1; assert (r0 = r2); [|now subst]].
      + unfold scan_fraction in F. destruct r0 as [|c0 r0]; [now injection F|]. destruct (c0 =? 46)%N; [|now injection F].
        destruct (span_digits r0) as [[|a1 a] b]; [now injection F|discriminate].
      + unfold scan_exponent in X. destruct r0 as [|c0 r0]; [now injection X|]. destruct ((c0 =? 101) || (c0 =? 69))%N; [|now injection X].
        destruct (scan_sign r0) as [g r3]. destruct (span_digits r3) as [[|a1 a] b]; [now injection X|discriminate].
    - injection H as <- <-. split; [reflexivity|discriminate]. }
  destruct Er as [-> Er]. assert (N1 := scan_exponent_nonempty _ _ _ X N). assert (N0 := scan_fraction_nonempty _ _ _ F N1).
  rewrite (scan_integer_more p i r0 q I N0).
  destruct r2 as [|c r2]; [congruence|]. destruct E as [E1 [E2 [E3 E4]]].
  assert (F' : scan_fraction (r0 ++ q) = (f, r1 ++ q)).
  { apply scan_fraction_more; [exact F|exact N1|]. intros ->. destruct r1 as [|d r1]; [congruence|]. cbn [hd]. intros ->.
    unfold scan_exponent in X. cbn in X. injection X as <- <- <-. congruence. }
  assert (X' : scan_exponent (r1 ++ q) = (e, (c :: r2) ++ q)).
  { apply scan_exponent_more; [exact X|discriminate|]. intros ->. cbn [hd]. split; assumption. }
  rewrite F', X'. destruct (f ++ e) eqn:FE.
  - destruct (int_of i); [|discriminate]. injection H as <- <-. reflexivity.
  - injection H as <-. reflexivity.
Qed.

Lemma after_literal_app l p r q : after_literal l p = Some r -> after_literal l (p ++ q) = Some (r ++ q).
Proof.
  revert p. induction l as [|a l IH]; intros p; [intros [= <-]; reflexivity|]. destruct p as [|b p]; [discriminate|].
  cbn [after_literal app]. destruct (a =? b)%N; [apply IH|discriminate].
Qed.

Lemma after_literal_head a l p r : after_literal (a :: l) p = Some r -> exists t, p = a :: t.
Proof.
  destruct p as [|b p]; [discriminate|]. cbn [after_literal]. destruct (N.eqb_spec a b) as [->|]; [|discriminate]. intros _. exists p. reflexivity.
Qed.

Lemma after_literal_other a l b p : a <> b -> after_literal (a :: l) (b :: p) = None.
Proof. intros H. cbn [after_literal]. rewrite (proj2 (N.eqb_neq _ _) H). reflexivity. Qed.

Lemma scan_number_head p x : scan_number p = Some x -> exists c t, p = c :: t /\ (digit_char c \/ c = 45%N).
Proof.
  unfold scan_number, scan_integer, scan_nat. destruct p as [|c p]; [discriminate|]. intros H. exists c, p. split; [reflexivity|].
  destruct (N.eqb_spec c 45) as [->|]; [right; reflexivity|]. left. destruct (N.eqb_spec c 48) as [->|]; [unfold digit_char; lia|].
  destruct (is_digit c) eqn:D; [|discriminate]. unfold is_digit in D. apply andb_true_iff in D. destruct D as [D1 D2]. apply N.leb_le in D1, D2.
  unfold digit_char. lia.
Qed.

Lemma scan_number_other c p : ~ (digit_char c \/ c = 45%N) -> scan_number (c :: p) = None.
Proof.
  intros H. destruct (scan_number (c :: p)) as [x|] eqn:E; [|reflexivity]. destruct (scan_number_head _ _ E) as [d [t [[= <- <-] D]]].
  contradiction.
Qed.

Lemma scan_scalar_more p x r q : scan_scalar p = Some (x, r) -> stops r -> scan_scalar (p ++ q) = Some (x, r ++ q).
Proof.
  intros H S. unfold scan_scalar in H.
  destruct (after_literal (u "null") p) as [r'|] eqn:E1.
  { injection H as <- <-. unfold scan_scalar. rewrite (after_literal_app _ _ _ q E1). reflexivity. }
  destruct (after_literal (u "true") p) as [r'|] eqn:E2.
  { injection H as <- <-. pose proof (after_literal_app _ _ _ q E2) as E. destruct (after_literal_head _ _ _ _ E2) as [t ->].
    unfold scan_scalar. rewrite E. reflexivity. }
  destruct (after_literal (u "false") p) as [r'|] eqn:E3.
  { injection H as <- <-. pose proof (after_literal_app _ _ _ q E3) as E. destruct (after_literal_head _ _ _ _ E3) as [t ->].
    unfold scan_scalar. rewrite E. reflexivity. }
  destruct (scan_number p) as [y|] eqn:E4.
  { injection H as ->. pose proof (scan_number_more _ _ _ q E4 S) as E. destruct (scan_number_head _ _ E4) as [c [t [-> D]]].
    unfold scan_scalar. rewrite E. cbn [app]. destruct (number_not_literal c (t ++ q) D) as [-> [-> ->]]. reflexivity. }
  destruct (after_literal (u "NaN") p) as [r'|] eqn:E5.
  { injection H as <- <-. pose proof (after_literal_app _ _ _ q E5) as E. destruct (after_literal_head _ _ _ _ E5) as [t ->].
    unfold scan_scalar. rewrite E. reflexivity. }
  destruct (after_literal (u "Infinity") p) as [r'|] eqn:E6.
  { injection H as <- <-. pose proof (after_literal_app _ _ _ q E6) as E. destruct (after_literal_head _ _ _ _ E6) as [t ->].
    unfold scan_scalar. rewrite E. reflexivity. }
  destruct (after_literal (u "-Infinity") p) as [r'|] eqn:E7; [|discriminate].
  injection H as <- <-. pose proof (after_literal_app _ _ _ q E7) as E. destruct (after_literal_head _ _ _ _ E7) as [t ->].
  change (after_literal (73%N :: u "nfinity") t = Some r') in E7. destruct (after_literal_head _ _ _ _ E7) as [t' ->].
  unfold scan_scalar. rewrite E. reflexivity.
Qed.

Lemma scan_string_more m : forall p, length p <= m -> forall x r q, scan_string p = Some (x, r) -> scan_string (p ++ q) = Some (x, r ++ q).
Proof.
  induction m as [|m IH]; intros p L x r q; [destruct p; [discriminate|cbn in L; lia]|].
  assert (T : forall c p', length p' < length p -> then_ c (scan_string p') = Some (x, r) -> then_ c (scan_string (p' ++ q)) = Some (x, r ++ q)).
  { intros c p' Lp H. unfold then_ in *. destruct (scan_string p') as [[y r']|] eqn:E; [|discriminate]. injection H as <- <-.
    rewrite (IH p' ltac:(lia) _ _ q E). reflexivity. }
  destruct p as [|c p]; [discriminate|]. cbn [app]. cbn [scan_string]. cbn [length] in T.
  destruct (c =? quote)%N; [intros [= <- <-]; reflexivity|].
  destruct (c =? backslash)%N.
  - destruct p as [|e r1]; [discriminate|]. cbn [app length] in *. destruct (e =? 117)%N.
    + destruct r1 as [|a [|b [|c2 [|d r2]]]]; try discriminate. cbn [app length] in *.
      destruct (hex4 a b c2 d) as [v|]; [|discriminate].
      destruct r2 as [|p1 [|q1 [|a' [|b' [|c' [|d' r3]]]]]].
      * cbn. discriminate.
      * intros H. cbn [app]. assert (P1 : (p1 =? backslash)%N = false).
        { destruct (p1 =? backslash)%N eqn:E; [|reflexivity]. apply N.eqb_eq in E. subst p1. cbn in H. discriminate. }
        assert (G := T v [p1] ltac:(cbn; lia) H). cbn [app] in G. rewrite P1, andb_false_r. cbn [andb].
        destruct q as [|x1 [|x2 [|x3 [|x4 [|x5 q]]]]]; exact G.
      * intros H. assert (G := T v [p1; q1] ltac:(cbn; lia) H). cbn [app] in G |- *.
        assert (P1 : (p1 =? backslash)%N && (q1 =? 117)%N = false).
        { destruct (p1 =? backslash)%N eqn:E; [|reflexivity]. destruct (q1 =? 117)%N eqn:E2; [|reflexivity].
          apply N.eqb_eq in E, E2. subst. cbn in H. discriminate. }
        rewrite <- andb_assoc, P1, andb_false_r. destruct q as [|x1 [|x2 [|x3 [|x4 q]]]]; exact G.
      * intros H. assert (G := T v [p1; q1; a'] ltac:(cbn; lia) H). cbn [app] in G |- *.
        assert (P1 : (p1 =? backslash)%N && (q1 =? 117)%N = false).
        { destruct (p1 =? backslash)%N eqn:E; [|reflexivity]. destruct (q1 =? 117)%N eqn:E2; [|reflexivity].
          apply N.eqb_eq in E, E2. subst. cbn in H. discriminate. }
        rewrite <- andb_assoc, P1, andb_false_r. destruct q as [|x1 [|x2 [|x3 q]]]; exact G.
      * intros H. assert (G := T v [p1; q1; a'; b'] ltac:(cbn; lia) H). cbn [app] in G |- *.
        assert (P1 : (p1 =? backslash)%N && (q1 =? 117)%N = false).
        { destruct (p1 =? backslash)%N eqn:E; [|reflexivity]. destruct (q1 =? 117)%N eqn:E2; [|reflexivity].
          apply N.eqb_eq in E, E2. subst. cbn in H. discriminate. }
        rewrite <- andb_assoc, P1, andb_false_r. destruct q as [|x1 [|x2 q]]; exact G.
      * intros H. assert (G := T v [p1; q1; a'; b'; c'] ltac:(cbn; lia) H). cbn [app] in G |- *.
        assert (P1 : (p1 =? backslash)%N && (q1 =? 117)%N = false).
        { destruct (p1 =? backslash)%N eqn:E; [|reflexivity]. destruct (q1 =? 117)%N eqn:E2; [|reflexivity].
          apply N.eqb_eq in E, E2. subst. cbn in H. discriminate. }
        rewrite <- andb_assoc, P1, andb_false_r. destruct q as [|x1 q]; exact G.
      * cbn [app]. destruct (is_high v && (p1 =? backslash)%N && (q1 =? 117)%N).
        -- destruct (hex4 a' b' c' d') as [y|]; [|discriminate]. destruct (is_low y).
           ++ apply T. cbn. lia.
           ++ apply (T v (p1 :: q1 :: a' :: b' :: c' :: d' :: r3)). cbn. lia.
        -- apply (T v (p1 :: q1 :: a' :: b' :: c' :: d' :: r3)). cbn. lia.
    + destruct (unescape e) as [y|]; [|discriminate]. apply T. lia.
  - destruct (c <? 32)%N; [discriminate|]. apply T. lia.
Qed.

Lemma scan_extends n : forall p q,
  (forall v r, scan n p = Some (v, r) -> (exists t, p = 123%N :: t) \/ stops r -> scan n (p ++ q) = Some (v, r ++ q)) /\
  (forall l r, scan_items n p = Some (l, r) -> scan_items n (p ++ q) = Some (l, r ++ q)) /\
  (forall l r, scan_pairs n p = Some (l, r) -> scan_pairs n (p ++ q) = Some (l, r ++ q)).
Proof.
  induction n as [|n IH]; intros p q; [repeat split; discriminate|].
  assert (IH1 : forall p v r, scan n p = Some (v, r) -> (exists t, p = 123%N :: t) \/ stops r -> scan n (p ++ q) = Some (v, r ++ q)) by (intros; now apply IH).
  assert (IH2 : forall p l r, scan_items n p = Some (l, r) -> scan_items n (p ++ q) = Some (l, r ++ q)) by (intros; now apply IH).
  assert (IH3 : forall p l r, scan_pairs n p = Some (l, r) -> scan_pairs n (p ++ q) = Some (l, r ++ q)) by (intros; now apply IH).
  assert (W : forall s, skip_ws s <> [] -> skip_ws (s ++ q) = skip_ws s ++ q).
  { intros s H. destruct (skip_ws s) as [|d t] eqn:E; [congruence|]. exact (skip_ws_app s q d t E). }
  split; [|split].
  - intros v r H S. destruct p as [|c p]; [discriminate|]. cbn [app]. rewrite scan_eq in *.
    destruct (c =? quote)%N.
    { destruct (scan_string p) as [[x r']|] eqn:E; [|discriminate]. injection H as <- <-.
      rewrite (scan_string_more (length p) p (le_n _) x r' q E). reflexivity. }
    destruct (N.eqb_spec c 123) as [->|C].
    { destruct (skip_ws p) as [|d r1] eqn:E; [discriminate|]. rewrite (skip_ws_app _ q _ _ E).
      destruct (d =? 125)%N; [injection H as <- <-; reflexivity|].
      destruct (scan_pairs n (d :: r1)) as [[l rest]|] eqn:E2; [|discriminate]. injection H as <- <-.
      change (d :: r1 ++ q) with ((d :: r1) ++ q). rewrite (IH3 _ _ _ E2). reflexivity. }
    destruct (c =? 91)%N.
    { destruct (skip_ws p) as [|d r1] eqn:E; [discriminate|]. rewrite (skip_ws_app _ q _ _ E).
      destruct (d =? 93)%N; [injection H as <- <-; reflexivity|].
      destruct (scan_items n (d :: r1)) as [[l rest]|] eqn:E2; [|discriminate]. injection H as <- <-.
      change (d :: r1 ++ q) with ((d :: r1) ++ q). rewrite (IH2 _ _ _ E2). reflexivity. }
    destruct S as [[t [= E _]]|S]; [congruence|]. exact (scan_scalar_more (c :: p) v r q H S).
  - intros l r H. rewrite scan_items_eq in *. destruct (scan n p) as [[y r0]|] eqn:E; [|discriminate].
    destruct (skip_ws r0) as [|d r1] eqn:E2; [discriminate|].
    assert (S : stops r0).
    { apply (skip_ws_stops r0 d r1 E2). destruct (N.eqb_spec d 93); [auto|]. destruct (N.eqb_spec d 44); [auto|discriminate]. }
    rewrite (IH1 _ _ _ E (or_intror S)), (skip_ws_app _ q _ _ E2).
    destruct (d =? 93)%N; [injection H as <- <-; reflexivity|]. destruct (d =? 44)%N; [|discriminate].
    destruct (scan_items n (skip_ws r1)) as [[l' rest]|] eqn:E3; [|discriminate]. injection H as <- <-.
    rewrite W, (IH2 _ _ _ E3); [reflexivity|]. intros Z. rewrite Z in E3. destruct n as [|[|n]]; discriminate.
  - intros l r H. destruct p as [|c p]; [discriminate|]. cbn [app].
    destruct (N.eq_dec c quote) as [->|C]; [|rewrite scan_pairs_eq' in H by exact C; discriminate].
    rewrite scan_pairs_eq in *. destruct (scan_string p) as [[k r1]|] eqn:E; [|discriminate].
    rewrite (scan_string_more (length p) p (le_n _) _ _ q E).
    destruct (skip_ws r1) as [|d r2] eqn:E2; [discriminate|]. rewrite (skip_ws_app _ q _ _ E2). destruct (d =? 58)%N; [|discriminate].
    destruct (scan n (skip_ws r2)) as [[y r3]|] eqn:E3; [|discriminate].
    destruct (skip_ws r3) as [|e r4] eqn:E4; [discriminate|].
    assert (S : stops r3).
    { apply (skip_ws_stops r3 e r4 E4). destruct (N.eqb_spec e 125); [auto|]. destruct (N.eqb_spec e 44); [auto|discriminate]. }
    assert (N2 : skip_ws r2 <> []) by (intros Z; rewrite Z in E3; destruct n; discriminate).
    rewrite (W r2 N2), (IH1 _ _ _ E3 (or_intror S)), (skip_ws_app _ q _ _ E4).
    destruct (e =? 125)%N; [injection H as <- <-; reflexivity|]. destruct (e =? 44)%N; [|discriminate].
    destruct (scan_pairs n (skip_ws r4)) as [[l' rest]|] eqn:E5; [|discriminate]. injection H as <- <-.
    rewrite W, (IH3 _ _ _ E5); [reflexivity|]. intros Z. rewrite Z in E5. destruct n; discriminate.
Qed.

Theorem loads_cut_off l p q : good_json (JObj l) -> text (JObj l) = p ++ q -> q <> [] -> loads p = None.
Proof.
  intros G E NQ. unfold loads. destruct p as [|c p]; [reflexivity|].
  assert (c = 123%N) as -> by (cbn in E; injection E as E _; congruence).
  rewrite skip_ws_id by reflexivity.
  destruct (scan (S (length (123%N :: p))) (123%N :: p)) as [[j r]|] eqn:H; [|reflexivity]. exfalso.
  assert (X : scan (S (length (123%N :: p))) ((123%N :: p) ++ q) = Some (j, r ++ q)).
  { apply scan_extends; [exact H|]. left. exists p. reflexivity. }
  apply (scan_more _ (S (length (text (JObj l))))) in X; [|rewrite E, app_length; lia].
  rewrite <- E in X. pose proof (scan_text (JObj l) G (S (length (text (JObj l)))) []) as Y. rewrite app_nil_r in Y.
  rewrite Y in X; [|pose proof (cost_text (JObj l) G); lia|exact I]. injection X as _ X. symmetry in X. apply app_eq_nil in X. tauto.
Qed.
