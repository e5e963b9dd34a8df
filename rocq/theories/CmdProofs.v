(** Proofs for C100. *)
From Coq Require Import String Ascii.
From Coq Require Import List Arith NArith ZArith Bool Strings.Byte Lia.
From Verif Require Import CodecModel CodecProofs AddressModel AddressProps CmdModel CmdSpec.
Import ListNotations.
Local Open Scope nat_scope.

Lemma after_app p s : after p (p ++ s) = Some s.
Proof. induction p as [|c p IH]; cbn; [now destruct s|]. now rewrite N.eqb_refl. Qed.

Lemma str_eqb_eq a : forall b, str_eqb a b = true <-> a = b.
Proof.
  induction a as [|x a IH]; intros [|y b]; cbn; try (split; [discriminate|discriminate]); [tauto|].
  rewrite andb_true_iff, N.eqb_eq, IH. split; [intros [-> ->]; reflexivity|intros [= -> ->]; auto].
Qed.

Lemma names e a g : graph_address e a = Some g <-> names_server e a g.
Proof.
  unfold graph_address, names_server. destruct (address_arg a); [tauto|]. destruct (graph_env e); [tauto|].
  vm_compute from_string. split; [intros [= <-]; reflexivity|now intros ->].
Qed.

Lemma str_int_arg z : option_like (str_int z) = false.
Proof.
  unfold str_int. destruct (Z.to_int z) as [d|d].
  - destruct (uint_chars d) as [|c [|c' r]] eqn:E; try reflexivity. cbn. assert (D : is_digit c = true).
    { apply digit_true, (uint_chars_digits d). rewrite E. now left. }
    unfold is_digit in D. apply andb_true_iff in D as [D _]. apply N.leb_le in D.
    replace (c =? 45)%N with false by (symmetry; apply N.eqb_neq; lia). reflexivity.
  - destruct (uint_chars d) as [|c r] eqn:E; [reflexivity|]. unfold option_like. rewrite N.eqb_refl. cbn [andb]. apply negb_false_iff, forallb_forall.
    intros x I. apply digit_true, (uint_chars_digits d). now rewrite E.
Qed.

Lemma parse_first s r a : parse_serve ((text "--address=" ++ s) :: r) a = parse_serve r (with_address a s).
Proof. cbn [parse_serve]. now rewrite after_app. Qed.

Lemma parse_port z a : parse_serve [text "--dashboard"; str_int z] a = Some (with_dash a (OnPort z)).
Proof.
  cbn [parse_serve]. change (after (text "--address=") (text "--dashboard")) with (@None pystr).
  change (after (text "--dashboard=") (text "--dashboard")) with (@None pystr).
  change (str_eqb (text "--dashboard") (text "--address")) with false. change (str_eqb (text "--dashboard") (text "--dashboard")) with true.
  cbv iota. now rewrite str_int_arg, int_of_str_int.
Qed.

Lemma child e a argv : start_child e a = Some (Some argv) -> exists a' g, parse_serve argv no_args = Some a' /\
  dashboard_arg a' = dashboard_arg a /\ names_server e a g /\ forall e', names_server e' a' g.
Proof.
  unfold start_child. destruct (graph_address e a) as [g|] eqn:G; [|discriminate].
  assert (Back : from_string (str_address g) = Some g).
  { assert (S : exists s, from_string s = Some g) by (unfold graph_address in G; destruct (address_arg a); eauto).
    destruct S as [s S]. destruct g as [h p]. exact (proj2 (C48_parse_print _ _ _ S)). }
  apply names in G. assert (Inj : forall x y : list pystr, Some (Some x) = Some (Some y) -> y = x) by congruence. intros H.
  destruct (dashboard_arg a) as [| |z] eqn:D; [|destruct (installed e); [|discriminate]|destruct (installed e); [|discriminate]]; apply Inj in H; subst argv;
    rewrite parse_first.
  - do 2 eexists. split; [reflexivity|]. split; [reflexivity|]. split; [exact G|]. intros e'. unfold names_server. cbn. exact Back.
  - do 2 eexists. split; [vm_compute; reflexivity|]. split; [reflexivity|]. split; [exact G|]. intros e'. unfold names_server. cbn. exact Back.
  - do 2 eexists. split; [apply parse_port|]. split; [reflexivity|]. split; [exact G|]. intros e'. unfold names_server. cbn. exact Back.
Qed.

Lemma same_serve e l a a' g : dashboard_arg a' = dashboard_arg a -> names_server e a g -> names_server e a' g -> handle_serve e l a' = handle_serve e l a.
Proof. intros D G G'. apply names in G, G'. unfold handle_serve. now rewrite G, G', D. Qed.

Lemma not_started e a : start_child e a = Some None <-> (exists g, names_server e a g) /\ dashboard_arg a <> NoDash /\ installed e = false.
Proof.
  unfold start_child. destruct (graph_address e a) as [g|] eqn:G.
  - apply names in G. destruct (dashboard_arg a), (installed e); split; try discriminate; try (intros [_ [K1 K2]]; congruence); intros _;
      (split; [eauto|]; split; [discriminate|reflexivity]).
  - split; [discriminate|]. intros [[g K] _]. apply names in K. congruence.
Qed.

Lemma place_of e g port d p : (port = match d with OnPort z => Some z | _ => None end) -> dashboard_address e g port = Some p -> dashboard_place e g d p.
Proof.
  intros ->. unfold dashboard_address, dashboard_place. destruct (dash_env e) as [s|].
  - destruct (from_string s) as [[h q]|] eqn:F; [|discriminate]. intros [= <-]. destruct d; cbn; [reflexivity|reflexivity|]. split; [reflexivity|]. eauto.
  - intros [= <-]. destruct d; cbn; [reflexivity|reflexivity|]. split; [reflexivity|]. exists 0%Z. reflexivity.
Qed.

Lemma served e l a tr ok : handle_serve e l a = (tr, ok) -> dash_stop_ok l = true ->
  tr = [] \/ exists g, names_server e a g /\ (tr = [Created g; Stopped] \/
    exists p, dashboard_arg a <> NoDash /\ installed e = true /\ dashboard_place e g (dashboard_arg a) p /\ tr = [Created g; DashStarted p; DashStopped; Stopped]).
Proof.
  unfold handle_serve. intros H K. destruct (graph_address e a) as [g|] eqn:G; [|injection H as <- _; auto]. apply names in G.
  destruct (negb (create_ok l g)); [injection H as <- _; auto|]. right. exists g. split; [exact G|].
  destruct (dashboard_arg a) as [| |z] eqn:D; [injection H as <- _; auto| |];
    (destruct (installed e) eqn:I; cbn [negb] in H; [|injection H as <- _; auto]);
    match type of H with context [dashboard_address ?x ?y ?z] => destruct (dashboard_address x y z) as [p|] eqn:P end; try (injection H as <- _; auto; fail);
    (destruct (negb (dash_ok l p)); [injection H as <- _; auto|]); rewrite K in H; injection H as <- _; right; exists p;
    (split; [discriminate|]); (split; [reflexivity|]); (split; [|reflexivity]); eapply place_of; try exact P; reflexivity.
Qed.

(** ** base64 *)

Lemma finite (f : N -> bool) k : forallb f (map N.of_nat (seq 0 k)) = true -> forall n, (n < N.of_nat k)%N -> f n = true.
Proof.
  intros H n L. rewrite forallb_forall in H. apply H. apply in_map_iff. exists (N.to_nat n). split; [apply N2Nat.id|]. apply in_seq. lia.
Qed.

Definition beqb (a b : list bool) : bool := if list_eq_dec Bool.bool_dec a b then true else false.
Lemma beqb_eq a b : beqb a b = true -> a = b.
Proof. unfold beqb. now destruct (list_eq_dec Bool.bool_dec a b). Qed.

Lemma byte_small x : (Byte.to_N x < 256)%N.
Proof. pose proof (Byte.to_N_bounded x). lia. Qed.

Lemma L1 x : (x < 256)%N -> bits 8 x = bits 6 (x / 4) ++ bits 2 (x mod 4).
Proof. intros H. apply beqb_eq. revert x H. apply (finite (fun x => beqb (bits 8 x) (bits 6 (x / 4) ++ bits 2 (x mod 4))) 256). vm_compute. reflexivity. Qed.
Lemma L3 x : (x < 256)%N -> bits 8 x = bits 4 (x / 16) ++ bits 4 (x mod 16).
Proof. intros H. apply beqb_eq. revert x H. apply (finite (fun x => beqb (bits 8 x) (bits 4 (x / 16) ++ bits 4 (x mod 16))) 256). vm_compute. reflexivity. Qed.
Lemma L5 x : (x < 256)%N -> bits 8 x = bits 2 (x / 64) ++ bits 6 (x mod 64).
Proof. intros H. apply beqb_eq. revert x H. apply (finite (fun x => beqb (bits 8 x) (bits 2 (x / 64) ++ bits 6 (x mod 64))) 256). vm_compute. reflexivity. Qed.
Lemma L2 x y : (x < 4)%N -> (y < 16)%N -> bits 6 (x * 16 + y) = bits 2 x ++ bits 4 y.
Proof.
  intros H K. apply beqb_eq. revert y K. apply (finite (fun y => beqb (bits 6 (x * 16 + y)) (bits 2 x ++ bits 4 y)) 16). revert x H.
  apply (finite (fun x => forallb (fun y => beqb (bits 6 (x * 16 + y)) (bits 2 x ++ bits 4 y)) (map N.of_nat (seq 0 16))) 4). vm_compute. reflexivity.
Qed.
Lemma L4 x y : (x < 16)%N -> (y < 4)%N -> bits 6 (x * 4 + y) = bits 4 x ++ bits 2 y.
Proof.
  intros H K. apply beqb_eq. revert y K. apply (finite (fun y => beqb (bits 6 (x * 4 + y)) (bits 4 x ++ bits 2 y)) 4). revert x H.
  apply (finite (fun x => forallb (fun y => beqb (bits 6 (x * 4 + y)) (bits 4 x ++ bits 2 y)) (map N.of_nat (seq 0 4))) 16). vm_compute. reflexivity.
Qed.
Lemma digit64 d : (d < 64)%N -> digit d = char64 d.
Proof. intros H. apply N.eqb_eq. revert d H. apply (finite (fun d => N.eqb (digit d) (char64 d)) 64). vm_compute. reflexivity. Qed.

Lemma lt_div (x a b c : N) : (x < a -> a = b * c -> b <> 0 -> x / b < c)%N.
Proof. intros H -> K. now apply N.div_lt_upper_bound. Qed.

Lemma encodes : forall b, is_base64 b (b64encode b).
Proof.
  fix IH 1. intros [|x [|y [|z r]]]; cbn [b64encode].
  - exists [], 0. repeat split; auto.
  - pose proof (byte_small x) as X. set (n := Byte.to_N x) in *.
    assert (A : (n / 4 < 64)%N) by (eapply lt_div; [exact X|reflexivity|discriminate]). pose proof (N.mod_lt n 4 ltac:(discriminate)) as A'.
    exists [n / 4; n mod 4 * 16]%N, 2. cbn [map app repeat]. rewrite !digit64 by lia. split; [reflexivity|].
    split; [repeat constructor; lia|]. split; [auto|]. split; [|reflexivity]. cbn [flat_map]. fold n. rewrite (L1 n X).
    replace (n mod 4 * 16)%N with (n mod 4 * 16 + 0)%N by lia. rewrite (L2 (n mod 4) 0) by lia. rewrite !app_nil_r, <- !app_assoc. reflexivity.
  - pose proof (byte_small x) as X. pose proof (byte_small y) as Y. set (n := Byte.to_N x) in *. set (m := Byte.to_N y) in *.
    assert (A : (n / 4 < 64)%N) by (eapply lt_div; [exact X|reflexivity|discriminate]). pose proof (N.mod_lt n 4 ltac:(discriminate)) as A'.
    assert (B : (m / 16 < 16)%N) by (eapply lt_div; [exact Y|reflexivity|discriminate]). pose proof (N.mod_lt m 16 ltac:(discriminate)) as B'.
    exists [n / 4; n mod 4 * 16 + m / 16; m mod 16 * 4]%N, 1. cbn [map app repeat]. rewrite !digit64 by lia. split; [reflexivity|].
    split; [repeat constructor; lia|]. split; [auto|]. split; [|reflexivity]. cbn [flat_map]. fold n m. rewrite (L1 n X), (L3 m Y), (L2 (n mod 4) (m / 16)) by lia.
    replace (m mod 16 * 4)%N with (m mod 16 * 4 + 0)%N by lia. rewrite (L4 (m mod 16) 0) by lia. rewrite !app_nil_r, <- !app_assoc. reflexivity.
  - destruct (IH r) as [ds [pad [E [F [P [Bt M]]]]]]. clear IH.
    pose proof (byte_small x) as X. pose proof (byte_small y) as Y. pose proof (byte_small z) as Z.
    set (n := Byte.to_N x) in *. set (m := Byte.to_N y) in *. set (k := Byte.to_N z) in *.
    assert (A : (n / 4 < 64)%N) by (eapply lt_div; [exact X|reflexivity|discriminate]). pose proof (N.mod_lt n 4 ltac:(discriminate)) as A'.
    assert (B : (m / 16 < 16)%N) by (eapply lt_div; [exact Y|reflexivity|discriminate]). pose proof (N.mod_lt m 16 ltac:(discriminate)) as B'.
    assert (C : (k / 64 < 4)%N) by (eapply lt_div; [exact Z|reflexivity|discriminate]). pose proof (N.mod_lt k 64 ltac:(discriminate)) as C'.
    exists ([n / 4; n mod 4 * 16 + m / 16; m mod 16 * 4 + k / 64; k mod 64]%N ++ ds), pad.
    rewrite !digit64 by lia. split; [rewrite map_app; cbn [map app]; now rewrite <- E|].
    split; [apply Forall_app; split; [repeat constructor; lia|exact F]|]. split; [exact P|]. split.
    + rewrite flat_map_app, Bt. cbn [flat_map]. fold n m k. rewrite (L1 n X), (L3 m Y), (L5 k Z), (L2 (n mod 4) (m / 16)), (L4 (m mod 16) (k / 64)) by lia.
      rewrite <- !app_assoc. reflexivity.
    + cbn [length]. replace (S (S (S (S (length (b64encode r)))))) with (length (b64encode r) + 1 * 4) by lia. rewrite Nat.mod_add by lia. exact M.
Qed.

Lemma char64_not_eq d : (d < 64)%N -> char64 d <> 61%N.
Proof. intros H K. assert (E : negb (N.eqb (char64 d) 61) = true); [|rewrite K in E; discriminate]. revert d H K. intros d H _. revert d H.
  apply (finite (fun d => negb (N.eqb (char64 d) 61)) 64). vm_compute. reflexivity. Qed.

Definition un64 (c : N) : N := (if c =? 43 then 62 else if c =? 47 then 63 else if c <? 58 then c + 4 else if c <? 91 then c - 65 else c - 71)%N.
Lemma un64_char d : (d < 64)%N -> un64 (char64 d) = d.
Proof. intros H. apply N.eqb_eq. revert d H. apply (finite (fun d => N.eqb (un64 (char64 d)) d) 64). vm_compute. reflexivity. Qed.

Lemma padded_unique (l l' : list N) p p' : ~ In 61%N l -> ~ In 61%N l' -> l ++ repeat 61%N p = l' ++ repeat 61%N p' -> l = l' /\ p = p'.
Proof.
  revert l'. induction l as [|x l IH]; intros [|y l'] N N' E.
  - cbn in E. split; [reflexivity|]. apply (f_equal (@length _)) in E. now rewrite !repeat_length in E.
  - destruct p; cbn in E; [discriminate|]. injection E as <- _. destruct N'. now left.
  - destruct p'; cbn in E; [discriminate|]. injection E as -> _. destruct N. now left.
  - cbn in E. injection E as -> E. destruct (IH l') as [-> ->]; auto; intros I; [apply N|apply N']; now right.
Qed.

Fixpoint value (l : list bool) (acc : N) : N := match l with [] => acc | b :: r => value r (2 * acc + (if b then 1 else 0))%N end.
Lemma value_byte x : value (bits 8 (Byte.to_N x)) 0 = Byte.to_N x.
Proof. destruct x; vm_compute; reflexivity. Qed.

Lemma bits_inj : forall b b' : bytes, flat_map (fun x => bits 8 (Byte.to_N x)) b = flat_map (fun x => bits 8 (Byte.to_N x)) b' -> b = b'.
Proof.
  assert (Lb : forall x, length (bits 8 (Byte.to_N x)) = 8) by (intros x; unfold bits; now rewrite map_length, rev_length, seq_length).
  induction b as [|x b IH]; intros [|y b'] E; cbn [flat_map] in E; [reflexivity| | |].
  - apply (f_equal (@length _)) in E. rewrite app_length, Lb in E. cbn in E. lia.
  - apply (f_equal (@length _)) in E. rewrite app_length, Lb in E. cbn in E. lia.
  - assert (K : bits 8 (Byte.to_N x) = bits 8 (Byte.to_N y) /\ flat_map (fun x => bits 8 (Byte.to_N x)) b = flat_map (fun x => bits 8 (Byte.to_N x)) b').
    { pose proof (f_equal (firstn 8) E) as E1. pose proof (f_equal (skipn 8) E) as E2.
      rewrite !firstn_app, !Lb, !firstn_O, !app_nil_r, !firstn_all2 in E1 by (rewrite Lb; lia).
      rewrite !skipn_app, !Lb, !skipn_all2 in E2 by (rewrite Lb; lia). cbn [app skipn Nat.sub] in E2. auto. }
    destruct K as [K1 K2]. apply IH in K2 as ->. f_equal. assert (Q : Byte.to_N x = Byte.to_N y) by (rewrite <- (value_byte x), <- (value_byte y), K1; reflexivity).
    apply (f_equal Byte.of_N) in Q. rewrite !Byte.of_to_N in Q. congruence.
Qed.

Lemma decodes_once b b' s : is_base64 b s -> is_base64 b' s -> b = b'.
Proof.
  intros [ds [pad [-> [F [_ [E _]]]]]] [ds' [pad' [Q [F' [_ [E' _]]]]]].
  assert (N : forall l, Forall (fun d => d < 64)%N l -> ~ In 61%N (map char64 l)).
  { intros l Fl I. apply in_map_iff in I as [d [K I]]. rewrite Forall_forall in Fl. exact (char64_not_eq d (Fl d I) K). }
  destruct (padded_unique _ _ _ _ (N _ F) (N _ F') Q) as [M ->].
  assert (U : forall l, Forall (fun d => d < 64)%N l -> map un64 (map char64 l) = l).
  { induction 1 as [|d l H Fl IH]; [reflexivity|]. cbn. now rewrite un64_char, IH. }
  assert (D : ds = ds') by (rewrite <- (U ds F), <- (U ds' F'), M; reflexivity). subst ds'.
  rewrite E in E'. apply app_inv_tail in E'. now apply bits_inj.
Qed.

(** ** Links *)

Section Links.
Context (dumps : pystr -> pystr) (deflate : bytes -> bytes).
Notation url := (mermaid_url dumps deflate).

Lemma link_ink g u : url g (text "ink") = Some u -> exists b s, utf8_encode g = Some b /\ u = text "https://mermaid.ink/img/" ++ s /\ is_base64 b s.
Proof.
  unfold mermaid_url. change (str_eqb (text "ink") (text "ink")) with true. cbv iota. destruct (utf8_encode g) as [b|] eqn:E; [|discriminate].
  intros [= <-]. exists b, (b64encode b). split; [reflexivity|]. split; [reflexivity|]. apply encodes.
Qed.

Lemma link_other g t u : url g t = Some u -> t <> text "ink" -> exists b s, utf8_encode (dumps g) = Some b /\ is_base64 (deflate b) s /\
  ((t = text "live" /\ u = text "https://mermaid.live/edit#pako:" ++ s) \/ (t = text "play" /\ u = text "https://www.mermaidchart.com/play#pako:" ++ s)).
Proof.
  unfold mermaid_url. intros H N. destruct (str_eqb t (text "ink")) eqn:E; [apply str_eqb_eq in E; contradiction|].
  destruct (utf8_encode (dumps g)) as [b|] eqn:U; [|discriminate]. exists b, (b64encode (deflate b)). split; [reflexivity|]. split; [apply encodes|].
  destruct (str_eqb t (text "live")) eqn:E1; [apply str_eqb_eq in E1; injection H as <-; auto|].
  destruct (str_eqb t (text "play")) eqn:E2; [apply str_eqb_eq in E2; injection H as <-; auto|discriminate].
Qed.

Lemma link_inj g g' t u : (forall x y, dumps x = dumps y -> x = y) -> (forall x y, deflate x = deflate y -> x = y) -> url g t = Some u -> url g' t = Some u -> g = g'.
Proof.
  intros Hd Hz H H'. assert (Uinj : forall x y b, utf8_encode x = Some b -> utf8_encode y = Some b -> x = y).
  { intros x y b K1 K2. apply utf8_roundtrip in K1, K2. congruence. }
  destruct (str_eqb t (text "ink")) eqn:E.
  - apply str_eqb_eq in E. subst t. apply link_ink in H as [b [s [B [-> S]]]]. apply link_ink in H' as [b' [s' [B' [Q S']]]].
    apply app_inv_head in Q as <-. pose proof (decodes_once _ _ _ S S') as <-. eapply Uinj; eassumption.
  - assert (N : t <> text "ink") by (intros K; apply str_eqb_eq in K; congruence).
    destruct (link_other _ _ _ H N) as [b [s [B [S K]]]]. destruct (link_other _ _ _ H' N) as [b' [s' [B' [S' K']]]].
    assert (Q : s = s').
    { destruct K as [[-> ->]|[-> ->]], K' as [[K1 K2]|[K1 K2]]; try discriminate K1; now apply app_inv_head in K2. }
    subst s'. pose proof (decodes_once _ _ _ S S') as Z. apply Hz in Z as <-. apply Hd. eapply Uinj; eassumption.
Qed.

Lemma link_fails g t : url g t = None -> (forall c, In c g -> scalar c = true) -> (forall c, In c (dumps g) -> scalar c = true) -> ~ In t [text "ink"; text "live"; text "play"].
Proof.
  intros H Sg Sd I. unfold mermaid_url in H.
  assert (U : forall x, (forall c, In c x -> scalar c = true) -> exists b, utf8_encode x = Some b) by apply utf8_encode_some.
  destruct (U g Sg) as [b1 B1], (U (dumps g) Sd) as [b2 B2].
  destruct I as [<-|[<-|[<-|[]]]]; [change (str_eqb (text "ink") (text "ink")) with true in H|change (str_eqb (text "live") (text "ink")) with false in H|change (str_eqb (text "play") (text "ink")) with false in H];
    cbv iota in H; rewrite ?B1, ?B2 in H; try discriminate H.
Qed.
End Links.
