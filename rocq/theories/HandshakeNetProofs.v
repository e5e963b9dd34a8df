(* Proofs about the network of HandshakeModel: the order of events does not matter, every schedule ends. *)

From Coq Require Import List NArith ZArith Arith Bool Lia.
From Coq Require Import Strings.Byte.
From Verif Require Import CodecModel StreamModel AddressModel Dict HandshakeModel HandshakeSpec.
Import ListNotations.

(** ** Lists *)

Lemma set_nth_length {A} (x : A) l : forall i, length (set_nth i x l) = length l.
Proof. induction l as [|y l IH]; intros [|i]; cbn; auto. Qed.

Lemma nth_set_same {A} (x : A) l : forall i y, nth_error l i = Some y -> nth_error (set_nth i x l) i = Some x.
Proof. induction l as [|z l IH]; intros [|i] y H; cbn in *; try discriminate; eauto. Qed.

Lemma nth_set_other {A} (x : A) l : forall i j, i <> j -> nth_error (set_nth i x l) j = nth_error l j.
Proof. induction l as [|z l IH]; intros [|i] [|j] H; cbn in *; auto; try congruence. Qed.

Lemma set_set_comm {A} (x y : A) l : forall i j, i <> j ->
  set_nth i x (set_nth j y l) = set_nth j y (set_nth i x l).
Proof. induction l as [|z l IH]; intros [|i] [|j] H; cbn in *; auto; try congruence. f_equal. auto. Qed.

Lemma set_set_same {A} (x y : A) l : forall i, set_nth i x (set_nth i y l) = set_nth i x l.
Proof. induction l as [|z l IH]; intros [|i]; cbn in *; auto. f_equal. auto. Qed.

(** ** One connection *)

Definition deliver_on (out : bool) (x : conn) : option conn :=
  if out then option_map (fun w => mkConn (c_from x) (c_to x) (c_at x) (c_made x) w (c_back x)) (deliver (c_out x))
  else option_map (fun w => mkConn (c_from x) (c_to x) (c_at x) (c_made x) (c_out x) w) (deliver (c_back x)).

Lemma send_deliver w b w' : deliver w = Some w' -> deliver (send w b) = Some (send w' b).
Proof.
  destruct w as [bf wi cl eo]. unfold deliver, send. cbn. destruct eo; [discriminate|].
  destruct wi as [|c wi]; destruct cl; cbn; try discriminate; intros [= <-]; reflexivity.
Qed.

Lemma shut_deliver w w' : deliver w = Some w' -> deliver (shut w) = Some (shut w').
Proof.
  destruct w as [bf wi cl eo]. unfold deliver, shut. cbn. destruct eo; [discriminate|].
  destruct wi as [|c wi]; destruct cl; cbn; try discriminate; intros [= <-]; reflexivity.
Qed.

Lemma take1_deliver w r w1 w' : take1 w = Some (r, w1) -> deliver w = Some w' ->
  exists y, take1 w' = Some (r, y) /\ deliver w1 = Some y.
Proof.
  destruct w as [bf wi cl eo]. unfold deliver, take1. cbn.
  destruct eo; [discriminate|]. destruct bf as [|b bf]; [discriminate|]. intros [= <- <-].
  destruct wi as [|c wi]; destruct cl; cbn; try discriminate; intros [= <-]; cbn; eauto.
Qed.

Lemma take_deliver n w r w1 w' : take n w = Some (r, w1) -> deliver w = Some w' ->
  exists y, take n w' = Some (r, y) /\ deliver w1 = Some y.
Proof.
  destruct w as [bf wi cl eo]. unfold deliver, take. cbn.
  destruct eo; [discriminate|]. destruct (Nat.leb_spec n (length bf)) as [L|L]; [|discriminate]. intros [= <- <-].
  destruct wi as [|c wi]; destruct cl; cbn; try discriminate; intros [= <-]; cbn.
  - destruct (Nat.leb_spec n (length bf)); [|lia]. eauto.
  - rewrite app_length. cbn. destruct (Nat.leb_spec n (length bf + 1)); [|lia].
    rewrite firstn_app, skipn_app. replace (n - length bf) with 0 by lia. cbn [firstn skipn]. rewrite app_nil_r. eauto.
  - rewrite app_length. cbn. destruct (Nat.leb_spec n (length bf + 1)); [|lia].
    rewrite firstn_app, skipn_app. replace (n - length bf) with 0 by lia. cbn [firstn skipn]. rewrite app_nil_r. eauto.
Qed.

(** Writing and closing do not disturb the reader. *)
Definition harmless (f : way -> way) : Prop :=
  (forall w r w1, take1 w = Some (r, w1) -> take1 (f w) = Some (r, f w1)) /\
  (forall n w r w1, take n w = Some (r, w1) -> take n (f w) = Some (r, f w1)) /\
  (forall w w', deliver w = Some w' -> deliver (f w) = Some (f w')).

Lemma harmless_send b : harmless (fun w => send w b).
Proof.
  split; [|split].
  - intros [bf wi cl eo] r w1. unfold take1, send. cbn. destruct bf as [|c bf].
    + destruct eo; [|discriminate]. intros [= <- <-]. destruct cl; reflexivity.
    + intros [= <- <-]. destruct cl; reflexivity.
  - intros n [bf wi cl eo] r w1. unfold take, send. cbn. destruct cl; cbn.
    + destruct (n <=? length bf); [intros [= <- <-]; reflexivity|]. destruct eo; [intros [= <- <-]; reflexivity|discriminate].
    + destruct (n <=? length bf); [intros [= <- <-]; reflexivity|]. destruct eo; [intros [= <- <-]; reflexivity|discriminate].
  - intros w w'. apply send_deliver.
Qed.

Lemma harmless_shut : harmless shut.
Proof.
  split; [|split].
  - intros [bf wi cl eo] r w1. unfold take1, shut. cbn. destruct bf as [|c bf].
    + destruct eo; [|discriminate]. intros [= <- <-]. reflexivity.
    + intros [= <- <-]. reflexivity.
  - intros n [bf wi cl eo] r w1. unfold take, shut. cbn.
    destruct (n <=? length bf); [intros [= <- <-]; reflexivity|]. destruct eo; [intros [= <- <-]; reflexivity|discriminate].
  - intros w w'. apply shut_deliver.
Qed.

(** What an action does to a connection that is made. *)
Inductive shape (i : nat) (p : prog) (x : conn) (p' : prog) (x' : conn) : Prop :=
| sh_dial : i = c_from x -> c_made x = false -> shape i p x p' x'
| sh_none : c_made x = true -> x' = x -> (exists c, p = Accept c p') -> i = c_to x -> shape i p x p' x'
| sh_write f : c_made x = true -> harmless f -> writes i x f = Some x' ->
    (forall y y', writes i y f = Some y' -> act i p y = Some (p', y')) -> shape i p x p' x'
| sh_read1 r k : c_made x = true -> reads i x take1 = Some (r, x') -> p' = k r ->
    (forall y, act i p y = option_map (fun q => (k (fst q), snd q)) (reads i y take1)) -> shape i p x p' x'
| sh_read n r k : c_made x = true -> reads i x (take n) = Some (r, x') -> p' = k r ->
    (forall y, act i p y = option_map (fun q => (k (fst q), snd q)) (reads i y (take n))) -> shape i p x p' x'.

Lemma act_shape i p x p' x' : act i p x = Some (p', x') -> shape i p x p' x'.
Proof.
  destruct p as [o|e| |c a k h|c k|c b k|c k|c n k h|c k|k|k]; cbn [act]; try discriminate.
  - destruct (Nat.eqb_spec i (c_from x)) as [->|]; [|discriminate]. destruct (c_made x) eqn:M; [discriminate|]. intros _.
    now apply sh_dial.
  - destruct (Nat.eqb_spec i (c_to x)) as [->|]; [|discriminate]. destruct (c_made x) eqn:M; [|rewrite andb_false_r; discriminate].
    destruct (_ && _); [|discriminate]. intros [= <- <-]. apply sh_none; eauto.
  - destruct (writes _ _ _) as [y|] eqn:W; [|discriminate]. intros [= <- <-].
    apply (sh_write _ _ _ _ _ (fun w => send w b)).
    + unfold writes in W. now destruct (c_made x).
    + apply harmless_send.
    + exact W.
    + intros z z' E. cbn [act]. rewrite E. reflexivity.
  - destruct (reads _ _ _) as [[r y]|] eqn:R; [|discriminate]. intros [= <- <-].
    apply (sh_read1 _ _ _ _ _ r k); auto.
    unfold reads in R. now destruct (c_made x).
  - destruct (reads _ _ _) as [[r y]|] eqn:R; [|discriminate]. intros [= <- <-].
    apply (sh_read _ _ _ _ _ n r (fun r => match r with Some b => k b | None => h end)); auto.
    unfold reads in R. now destruct (c_made x).
  - destruct (writes _ _ _) as [y|] eqn:W; [|discriminate]. intros [= <- <-].
    apply (sh_write _ _ _ _ _ shut).
    + unfold writes in W. now destruct (c_made x).
    + apply harmless_shut.
    + exact W.
    + intros z z' E. cbn [act]. rewrite E. reflexivity.
Qed.

Lemma act_needs_made i p x p' x' : c_made x = false -> act i p x = Some (p', x') -> i = c_from x.
Proof.
  intros M H. destruct (act_shape _ _ _ _ _ H); try congruence.
Qed.

(** Reading generally. *)
Definition readable {A} (f : way -> option (A * way)) : Prop :=
  (forall g w r w1, harmless g -> f w = Some (r, w1) -> f (g w) = Some (r, g w1)) /\
  (forall w r w1 w', f w = Some (r, w1) -> deliver w = Some w' -> exists y, f w' = Some (r, y) /\ deliver w1 = Some y).

Lemma readable_take1 : readable take1.
Proof. split; [intros g w r w1 (H & _ & _); apply H|intros *; apply take1_deliver]. Qed.
Lemma readable_take n : readable (take n).
Proof. split; [intros g w r w1 (_ & H & _); apply H|intros *; apply take_deliver]. Qed.

Lemma writes_writes i j x f g x1 x2 : i <> j -> writes i x f = Some x1 -> writes j x g = Some x2 ->
  exists y, writes j x1 g = Some y /\ writes i x2 f = Some y.
Proof.
  intros N. unfold writes. destruct (c_made x); [|discriminate].
  destruct (Nat.eqb_spec i (c_from x)) as [E1|E1], (Nat.eqb_spec j (c_from x)) as [E2|E2]; try congruence.
  - intros [= <-]. cbn. destruct (Nat.eqb_spec j (c_to x)) as [E3|E3]; [|discriminate]. intros [= <-]. cbn.
    destruct (Nat.eqb_spec j (c_from x)); [congruence|]. destruct (Nat.eqb_spec i (c_from x)); [|congruence].
    destruct (Nat.eqb_spec j (c_to x)); [|congruence]. eauto.
  - destruct (Nat.eqb_spec i (c_to x)) as [E3|E3]; [|discriminate]. intros [= <-] [= <-]. cbn.
    destruct (Nat.eqb_spec j (c_from x)); [|congruence]. destruct (Nat.eqb_spec i (c_from x)); [congruence|].
    destruct (Nat.eqb_spec i (c_to x)); [|congruence]. eauto.
  - destruct (Nat.eqb_spec i (c_to x)), (Nat.eqb_spec j (c_to x)); try discriminate; congruence.
Qed.

Lemma writes_reads {A} i j x f (g : way -> option (A * way)) x1 r x2 :
  i <> j -> harmless f -> readable g -> writes i x f = Some x1 -> reads j x g = Some (r, x2) ->
  exists y, reads j x1 g = Some (r, y) /\ writes i x2 f = Some y.
Proof.
  intros N Hf (Hg & _). unfold writes, reads. destruct (c_made x); [|discriminate].
  destruct (Nat.eqb_spec i (c_from x)) as [E1|E1], (Nat.eqb_spec j (c_from x)) as [E2|E2]; try congruence.
  - intros [= <-]. cbn. destruct (Nat.eqb_spec j (c_to x)) as [E3|E3]; [|discriminate].
    destruct (g (c_out x)) as [[r' w]|] eqn:G; [|discriminate]. intros [= <- <-]. cbn.
    destruct (Nat.eqb_spec j (c_from x)); [congruence|]. destruct (Nat.eqb_spec i (c_from x)); [|congruence].
    destruct (Nat.eqb_spec j (c_to x)); [|congruence]. rewrite (Hg f _ _ _ Hf G). eauto.
  - destruct (Nat.eqb_spec i (c_to x)) as [E3|E3]; [|discriminate]. intros [= <-].
    destruct (g (c_back x)) as [[r' w]|] eqn:G; [|discriminate]. intros [= <- <-]. cbn.
    destruct (Nat.eqb_spec j (c_from x)); [|congruence]. destruct (Nat.eqb_spec i (c_from x)); [congruence|].
    destruct (Nat.eqb_spec i (c_to x)); [|congruence]. rewrite (Hg f _ _ _ Hf G). eauto.
  - destruct (Nat.eqb_spec i (c_to x)), (Nat.eqb_spec j (c_to x)); try discriminate; congruence.
Qed.

Lemma reads_reads {A B} i j x (f : way -> option (A * way)) (g : way -> option (B * way)) r1 x1 r2 x2 :
  i <> j -> reads i x f = Some (r1, x1) -> reads j x g = Some (r2, x2) ->
  exists y, reads j x1 g = Some (r2, y) /\ reads i x2 f = Some (r1, y).
Proof.
  intros N. unfold reads. destruct (c_made x); [|discriminate].
  destruct (Nat.eqb_spec i (c_from x)) as [E1|E1], (Nat.eqb_spec j (c_from x)) as [E2|E2]; try congruence.
  - destruct (f (c_back x)) as [[r' w]|] eqn:F; [|discriminate]. intros [= <- <-]. cbn.
    destruct (Nat.eqb_spec j (c_to x)) as [E3|E3]; [|discriminate].
    destruct (g (c_out x)) as [[r2' w2]|] eqn:G; [|discriminate]. intros [= <- <-]. cbn.
    destruct (Nat.eqb_spec j (c_from x)); [congruence|]. destruct (Nat.eqb_spec i (c_from x)); [|congruence].
    destruct (Nat.eqb_spec j (c_to x)); [|congruence]. rewrite ?F, ?G. eauto.
  - destruct (Nat.eqb_spec i (c_to x)) as [E3|E3]; [|discriminate].
    destruct (f (c_out x)) as [[r' w]|] eqn:F; [|discriminate]. intros [= <- <-].
    destruct (g (c_back x)) as [[r2' w2]|] eqn:G; [|discriminate]. intros [= <- <-]. cbn.
    destruct (Nat.eqb_spec j (c_from x)); [|congruence]. destruct (Nat.eqb_spec i (c_from x)); [congruence|].
    destruct (Nat.eqb_spec i (c_to x)); [|congruence]. rewrite ?F, ?G. eauto.
  - destruct (Nat.eqb_spec i (c_to x)), (Nat.eqb_spec j (c_to x)); try discriminate; congruence.
Qed.

Lemma writes_keeps i x f x' : writes i x f = Some x' ->
  c_made x' = true /\ c_from x' = c_from x /\ c_to x' = c_to x /\ c_at x' = c_at x.
Proof.
  unfold writes. destruct (c_made x); [|discriminate].
  destruct (_ =? _); [intros [= <-]; auto|]. destruct (_ =? _); [intros [= <-]; auto|discriminate].
Qed.

Lemma reads_keeps {A} i x (f : way -> option (A * way)) r x' : reads i x f = Some (r, x') ->
  c_made x' = true /\ c_from x' = c_from x /\ c_to x' = c_to x /\ c_at x' = c_at x.
Proof.
  unfold reads. destruct (c_made x); [|discriminate].
  destruct (_ =? _); [destruct (f _) as [[? ?]|]; [intros [= <- <-]; auto|discriminate]|].
  destruct (_ =? _); [destruct (f _) as [[? ?]|]; [intros [= <- <-]; auto|discriminate]|discriminate].
Qed.

Lemma accept_again i c k x x' : act i (Accept c k) x = Some (k, x) ->
  c_made x' = true -> c_from x' = c_from x -> c_to x' = c_to x -> act i (Accept c k) x' = Some (k, x').
Proof.
  cbn [act]. intros H -> -> ->. destruct (_ && negb _); [|discriminate]. reflexivity.
Qed.

(** Two coroutines on one connection. *)
Lemma act_act i j x p q p' q' x1 x2 : i <> j ->
  act i p x = Some (p', x1) -> act j q x = Some (q', x2) ->
  exists y, act j q x1 = Some (q', y) /\ act i p x2 = Some (p', y).
Proof.
  intros N Hp Hq.
  assert (Sp := act_shape _ _ _ _ _ Hp). assert (Sq := act_shape _ _ _ _ _ Hq).
  destruct (c_made x) eqn:M; [|rewrite (act_needs_made _ _ _ _ _ M Hp), (act_needs_made _ _ _ _ _ M Hq) in N; congruence].
  destruct Sp as [? ?|_ Ep (cp & ->) _|f _ Hf Wf Af|r k _ Rf Ek Af|n r k _ Rf Ek Af]; [congruence| | | |];
  destruct Sq as [? ?|_ Eq (cq & ->) _|g _ Hg Wg Ag|r2 k2 _ Rg Ek2 Ag|n2 r2 k2 _ Rg Ek2 Ag]; try congruence; subst.
  - eauto.
  - destruct (writes_keeps _ _ _ _ Wg) as (K1 & K2 & K3 & _). exists x2. split; [auto|]. eapply accept_again; eauto.
  - destruct (reads_keeps _ _ _ _ _ Rg) as (K1 & K2 & K3 & _). exists x2. split; [auto|]. eapply accept_again; eauto.
  - destruct (reads_keeps _ _ _ _ _ Rg) as (K1 & K2 & K3 & _). exists x2. split; [auto|]. eapply accept_again; eauto.
  - destruct (writes_keeps _ _ _ _ Wf) as (K1 & K2 & K3 & _). exists x1. split; [|auto]. eapply accept_again; eauto.
  - destruct (writes_writes _ _ _ _ _ _ _ N Wf Wg) as (y & Y1 & Y2). exists y. auto.
  - destruct (writes_reads _ _ _ _ _ _ _ _ N Hf readable_take1 Wf Rg) as (y & Y1 & Y2). exists y. rewrite Ag, Y1. auto.
  - destruct (writes_reads _ _ _ _ _ _ _ _ N Hf (readable_take n2) Wf Rg) as (y & Y1 & Y2). exists y. rewrite Ag, Y1. auto.
  - destruct (reads_keeps _ _ _ _ _ Rf) as (K1 & K2 & K3 & _). exists x1. split; [|auto]. eapply accept_again; eauto.
  - destruct (writes_reads _ _ _ _ _ _ _ _ (not_eq_sym N) Hg readable_take1 Wg Rf) as (y & Y1 & Y2). exists y. rewrite Af, Y1. auto.
  - destruct (reads_reads _ _ _ _ _ _ _ _ _ N Rf Rg) as (y & Y1 & Y2). exists y. rewrite Af, Ag, Y1, Y2. auto.
  - destruct (reads_reads _ _ _ _ _ _ _ _ _ N Rf Rg) as (y & Y1 & Y2). exists y. rewrite Af, Ag, Y1, Y2. auto.
  - destruct (reads_keeps _ _ _ _ _ Rf) as (K1 & K2 & K3 & _). exists x1. split; [|auto]. eapply accept_again; eauto.
  - destruct (writes_reads _ _ _ _ _ _ _ _ (not_eq_sym N) Hg (readable_take n) Wg Rf) as (y & Y1 & Y2). exists y. rewrite Af, Y1. auto.
  - destruct (reads_reads _ _ _ _ _ _ _ _ _ N Rf Rg) as (y & Y1 & Y2). exists y. rewrite Af, Ag, Y1, Y2. auto.
  - destruct (reads_reads _ _ _ _ _ _ _ _ _ N Rf Rg) as (y & Y1 & Y2). exists y. rewrite Af, Ag, Y1, Y2. auto.
Qed.

(** A coroutine and the network on one connection. *)
Lemma act_deliver i x p p' x1 out x2 :
  act i p x = Some (p', x1) -> deliver_on out x = Some x2 ->
  exists y, deliver_on out x1 = Some y /\ act i p x2 = Some (p', y).
Proof.
  intros Hp Hd.
  assert (K : c_made x2 = c_made x /\ c_from x2 = c_from x /\ c_to x2 = c_to x /\ c_at x2 = c_at x).
  { unfold deliver_on in Hd. destruct out, (deliver _); cbn in Hd; try discriminate; injection Hd as <-; auto. }
  destruct K as (K1 & K2 & K3 & K4).
  destruct p as [o|e| |c a k h|c k|c b k|c k|c n k h|c k|k|k]; cbn [act] in *; try discriminate.
  - rewrite K1, K2, K4. destruct (_ && _); [|discriminate].
    assert (R : forall m, exists y,
      deliver_on out (mkConn (c_from x) (c_to x) (c_at x) m (c_out x) (c_back x)) = Some y /\
      y = mkConn (c_from x2) (c_to x2) (c_at x2) m (c_out x2) (c_back x2)).
    { intros m. unfold deliver_on in *. cbn. destruct out, (deliver _); cbn in *; try discriminate; injection Hd as <-; cbn; eauto. }
    destruct (c_at x) as [a'|] eqn:Ca.
    + destruct (address_dec a a').
      * injection Hp as <- <-. destruct (R true) as (y & Y1 & ->). eexists. split; [exact Y1|].
        rewrite K2, K3, K4. reflexivity.
      * injection Hp as <- <-. eauto.
    + injection Hp as <- <-. eauto.
  - rewrite K1, K2, K3. destruct (_ && _); [|discriminate]. injection Hp as <- <-. eauto.
  - destruct (harmless_send b) as (_ & _ & HD). unfold writes in *. rewrite K1, K2, K3.
    destruct (c_made x) eqn:M; [|discriminate].
    unfold deliver_on in *. destruct (i =? c_from x); [|destruct (i =? c_to x); [|discriminate]];
      cbn [option_map] in Hp; injection Hp as <- <-; cbn [c_from c_to c_at c_made c_out c_back];
      destruct out; destruct (deliver _) as [w|] eqn:D in Hd; cbn in Hd; try discriminate; injection Hd as <-; cbn;
      try rewrite (HD _ _ D); try rewrite D; cbn; eauto.
  - unfold reads in *. rewrite K1, K2, K3. destruct (c_made x) eqn:M; [|discriminate].
    unfold deliver_on in *.
    destruct (i =? c_from x); [|destruct (i =? c_to x); [|discriminate]];
      destruct (take1 _) as [[r w1]|] eqn:T in Hp; try discriminate; cbn in Hp; injection Hp as <- <-; cbn;
      destruct out; destruct (deliver _) as [w|] eqn:D in Hd; cbn in Hd; try discriminate; injection Hd as <-; cbn;
      try (destruct (take1_deliver _ _ _ _ T D) as (y & Y1 & Y2); rewrite Y1, Y2; cbn; eauto);
      try (rewrite T, D; cbn; eauto).
  - unfold reads in *. rewrite K1, K2, K3. destruct (c_made x) eqn:M; [|discriminate].
    unfold deliver_on in *.
    destruct (i =? c_from x); [|destruct (i =? c_to x); [|discriminate]];
      destruct (take n _) as [[r w1]|] eqn:T in Hp; try discriminate; cbn in Hp; injection Hp as <- <-; cbn;
      destruct out; destruct (deliver _) as [w|] eqn:D in Hd; cbn in Hd; try discriminate; injection Hd as <-; cbn;
      try (destruct (take_deliver _ _ _ _ _ T D) as (y & Y1 & Y2); rewrite Y1, Y2; cbn; eauto);
      try (rewrite T, D; cbn; eauto).
  - destruct harmless_shut as (_ & _ & HD). unfold writes in *. rewrite K1, K2, K3.
    destruct (c_made x) eqn:M; [|discriminate].
    unfold deliver_on in *. destruct (i =? c_from x); [|destruct (i =? c_to x); [|discriminate]];
      cbn [option_map] in Hp; injection Hp as <- <-; cbn [c_from c_to c_at c_made c_out c_back];
      destruct out; destruct (deliver _) as [w|] eqn:D in Hd; cbn in Hd; try discriminate; injection Hd as <-; cbn;
      try rewrite (HD _ _ D); try rewrite D; cbn; eauto.
Qed.

Lemma deliver_deliver x x1 x2 : deliver_on true x = Some x1 -> deliver_on false x = Some x2 ->
  exists y, deliver_on false x1 = Some y /\ deliver_on true x2 = Some y.
Proof.
  unfold deliver_on. destruct (deliver (c_out x)) as [w|] eqn:D; [|discriminate]. intros [= <-]. cbn.
  destruct (deliver (c_back x)) as [v|] eqn:E; [|discriminate]. intros [= <-]. cbn. rewrite D. cbn. eauto.
Qed.

(** ** The network *)

Lemma step_deliver c out n :
  step (Deliver c out) n =
  match nth_error (n_conns n) c with
  | None => None
  | Some x => option_map (fun x' => mkNet (n_procs n) (set_nth c x' (n_conns n)) (n_lock n)) (deliver_on out x)
  end.
Proof.
  cbn [step]. destruct (nth_error _ _) as [x|]; [|reflexivity].
  unfold deliver_on. destruct out, (deliver _); reflexivity.
Qed.

Lemma step_act i n p c x pr' x' :
  nth_error (n_procs n) i = Some p -> uses (p_prog p) = Some c -> nth_error (n_conns n) c = Some x ->
  act i (p_prog p) x = Some (pr', x') ->
  step (Run i) n = Some (mkNet (set_nth i (mkProc pr' (p_locked p)) (n_procs n)) (set_nth c x' (n_conns n)) (n_lock n)).
Proof.
  intros Hp Hu Hc Ha. cbn [step]. rewrite Hp.
  destruct (p_prog p) eqn:E; cbn [uses] in *; try discriminate; injection Hu as ->; rewrite Hc, Ha; reflexivity.
Qed.

(** The command lock, alone. *)
Definition lock_act (p : proc) (lock : bool) : option proc :=
  match p_prog p with
  | Lock k => if lock then None else Some (mkProc k true)
  | Unlock k => Some (mkProc k false)
  | _ => None
  end.

Lemma step_lock i n p p' :
  nth_error (n_procs n) i = Some p -> lock_act p (n_lock n) = Some p' ->
  step (Run i) n = Some (mkNet (set_nth i p' (n_procs n)) (n_conns n) (n_lock n)).
Proof.
  intros Hp Hl. cbn [step]. rewrite Hp. unfold lock_act in Hl.
  destruct (p_prog p); try discriminate.
  - destruct (n_lock n); [discriminate|]. injection Hl as <-. reflexivity.
  - injection Hl as <-. reflexivity.
Qed.

Lemma run_inv i n n1 : step (Run i) n = Some n1 ->
  exists p, nth_error (n_procs n) i = Some p /\
  ((exists p', lock_act p (n_lock n) = Some p' /\ n1 = mkNet (set_nth i p' (n_procs n)) (n_conns n) (n_lock n)) \/
   (exists c x pr' x', uses (p_prog p) = Some c /\ nth_error (n_conns n) c = Some x /\
      act i (p_prog p) x = Some (pr', x') /\
      n1 = mkNet (set_nth i (mkProc pr' (p_locked p)) (n_procs n)) (set_nth c x' (n_conns n)) (n_lock n))).
Proof.
  cbn [step]. destruct (nth_error (n_procs n) i) as [p|]; [|discriminate]. intros H. exists p. split; [reflexivity|].
  unfold lock_act. destruct (p_prog p) eqn:E; cbn [uses] in *; try discriminate;
    try (destruct (nth_error (n_conns n) c) as [x|] eqn:C; [|discriminate];
         destruct (act i _ x) as [[pr' x']|] eqn:A in H; [|discriminate]; injection H as <-;
         right; exists c, x, pr', x'; auto).
  - destruct (n_lock n); [discriminate|]. injection H as <-. left. eauto.
  - injection H as <-. left. eauto.
Qed.

(** Two different things that can happen can happen in either order, with the same result. *)
Lemma diamond a b n n1 n2 : a <> b -> step a n = Some n1 -> step b n = Some n2 ->
  exists m, step b n1 = Some m /\ step a n2 = Some m.
Proof.
  intros N Ha Hb.
  assert (RD : forall i c out n1 n2, step (Run i) n = Some n1 -> step (Deliver c out) n = Some n2 ->
    exists m, step (Deliver c out) n1 = Some m /\ step (Run i) n2 = Some m).
  { clear. intros i c out n1 n2 Ha Hb. rewrite step_deliver in Hb.
    destruct (nth_error (n_conns n) c) as [x|] eqn:C; [|discriminate].
    destruct (deliver_on out x) as [x'|] eqn:D; [|discriminate]. injection Hb as <-.
    apply run_inv in Ha. destruct Ha as (p & Hp & [(p' & L & ->)|(c2 & y & pr' & y' & U & C2 & A & ->)]).
    - eexists. split.
      + rewrite step_deliver. cbn. rewrite C, D. reflexivity.
      + apply (step_lock i (mkNet _ _ _) p p'); assumption.
    - destruct (Nat.eq_dec c c2) as [<-|Nc].
      + rewrite C in C2. injection C2 as <-.
        destruct (act_deliver _ _ _ _ _ _ _ A D) as (z & Z1 & Z2).
        eexists. split.
        * rewrite step_deliver. cbn. rewrite (nth_set_same _ _ _ _ C), Z1. cbn. rewrite set_set_same. reflexivity.
        * rewrite (step_act i (mkNet _ _ _) p c x' pr' z); cbn; auto.
          -- rewrite set_set_same. reflexivity.
          -- eapply nth_set_same; eauto.
      + eexists. split.
        * rewrite step_deliver. cbn. rewrite nth_set_other by auto. rewrite C, D. reflexivity.
        * rewrite (step_act i (mkNet _ _ _) p c2 y pr' y'); cbn; auto.
          -- rewrite set_set_comm by auto. reflexivity.
          -- rewrite nth_set_other; auto. }
  destruct a as [i|c out], b as [j|d out'].
  - assert (Nij : i <> j) by congruence.
    apply run_inv in Ha. destruct Ha as (p & Hp & Ha). apply run_inv in Hb. destruct Hb as (q & Hq & Hb).
    destruct Ha as [(p' & L & ->)|(c & x & pr' & x' & U & C & A & ->)];
    destruct Hb as [(q' & L2 & ->)|(c2 & x2 & qr' & x2' & U2 & C2 & A2 & ->)].
    + eexists. split.
      * apply (step_lock j (mkNet _ _ _) q q'); cbn; auto. rewrite nth_set_other; auto.
      * rewrite (step_lock i (mkNet _ _ _) p p'); cbn; auto; [|rewrite nth_set_other; auto].
        rewrite set_set_comm by auto. reflexivity.
    + eexists. split.
      * apply (step_act j (mkNet _ _ _) q c2 x2 qr' x2'); cbn; auto. rewrite nth_set_other; auto.
      * rewrite (step_lock i (mkNet _ _ _) p p'); cbn; auto; [|rewrite nth_set_other; auto].
        rewrite set_set_comm by auto. reflexivity.
    + eexists. split.
      * apply (step_lock j (mkNet _ _ _) q q'); cbn; auto. rewrite nth_set_other; auto.
      * rewrite (step_act i (mkNet _ _ _) p c x pr' x'); cbn; auto; [|rewrite nth_set_other; auto].
        rewrite set_set_comm by auto. reflexivity.
    + destruct (Nat.eq_dec c c2) as [<-|Nc].
      * rewrite C in C2. injection C2 as <-.
        destruct (act_act _ _ _ _ _ _ _ _ _ Nij A A2) as (z & Z1 & Z2).
        eexists. split.
        -- rewrite (step_act j (mkNet _ _ _) q c x' qr' z); cbn; auto.
           ++ rewrite nth_set_other; auto.
           ++ eapply nth_set_same; eauto.
        -- rewrite (step_act i (mkNet _ _ _) p c x2' pr' z); cbn; auto.
           ++ rewrite !set_set_same. rewrite (set_set_comm _ _ _ i j) by auto. reflexivity.
           ++ rewrite nth_set_other; auto.
           ++ eapply nth_set_same; eauto.
      * eexists. split.
        -- rewrite (step_act j (mkNet _ _ _) q c2 x2 qr' x2'); cbn; auto; rewrite nth_set_other; auto.
        -- rewrite (step_act i (mkNet _ _ _) p c x pr' x'); cbn; auto; try (rewrite nth_set_other; auto).
           rewrite (set_set_comm _ _ _ i j), (set_set_comm _ _ _ c c2) by auto. reflexivity.
  - eauto.
  - destruct (RD _ _ _ _ _ Hb Ha) as (m & M1 & M2). eauto.
  - rewrite step_deliver in Ha, Hb. destruct (Nat.eq_dec c d) as [<-|Nc].
    + destruct (nth_error (n_conns n) c) as [x|] eqn:C; [|discriminate].
      destruct (deliver_on out x) as [x1|] eqn:D1; [|discriminate]. injection Ha as <-.
      destruct (deliver_on out' x) as [x2|] eqn:D2; [|discriminate]. injection Hb as <-.
      assert (exists y, deliver_on out' x1 = Some y /\ deliver_on out x2 = Some y) as (y & Y1 & Y2).
      { destruct out, out'; try congruence.
        - eapply deliver_deliver; eauto.
        - destruct (deliver_deliver _ _ _ D2 D1) as (y & ? & ?). eauto. }
      eexists. rewrite !step_deliver. cbn. rewrite !(nth_set_same _ _ _ _ C), Y1, Y2. cbn.
      rewrite !set_set_same. eauto.
    + destruct (nth_error (n_conns n) c) as [x|] eqn:C; [|discriminate].
      destruct (deliver_on out x) as [x1|] eqn:D1; [|discriminate]. injection Ha as <-.
      destruct (nth_error (n_conns n) d) as [z|] eqn:C2; [|discriminate].
      destruct (deliver_on out' z) as [x2|] eqn:D2; [|discriminate]. injection Hb as <-.
      eexists. rewrite !step_deliver. cbn. rewrite !nth_set_other by auto. rewrite C, C2, D1, D2. cbn.
      rewrite (set_set_comm _ _ _ c d) by auto. eauto.
Qed.

Lemma agent_dec : forall a b : agent, {a = b} + {a <> b}.
Proof. decide equality; try apply Nat.eq_dec; apply Bool.bool_dec. Qed.

(** [reach k n m]: [m] after [k] steps. *)
Inductive reach : nat -> net -> net -> Prop :=
| reach_0 n : reach 0 n n
| reach_S k a n n1 m : step a n = Some n1 -> reach k n1 m -> reach (S k) n m.

Lemma reach_step_diamond k : forall n m a n1, reach k n m -> stuck m -> step a n = Some n1 ->
  exists k', k = S k' /\ reach k' n1 m.
Proof.
  induction k as [|k IH]; intros n m a n1 R St H.
  - inversion R; subst. rewrite (St a) in H. discriminate.
  - inversion R as [|k0 b n0 n2 m0 H2 R2]; subst. exists k. split; [reflexivity|].
    destruct (agent_dec a b) as [<-|N].
    + rewrite H in H2. injection H2 as <-. exact R2.
    + destruct (diamond _ _ _ _ _ N H H2) as (z & Z1 & Z2).
      destruct (IH _ _ _ _ R2 St Z2) as (k' & -> & R3). econstructor; eauto.
Qed.

Lemma reach_comes k : forall n m, reach k n m -> stuck m -> comes_to (eq m) n.
Proof.
  induction k as [|k IH]; intros n m R St.
  - inversion R; subst. constructor; [reflexivity|]. intros a m' H. rewrite (St a) in H. discriminate.
  - constructor.
    + intros Sn. inversion R as [|k0 b n0 n2 m0 H2 R2]; subst. rewrite (Sn b) in H2. discriminate.
    + intros a n1 H. destruct (reach_step_diamond _ _ _ _ _ R St H) as (k' & E & R'). injection E as <-. eauto.
Qed.

Lemma comes_weaken (P Q : net -> Prop) n : (forall m, P m -> Q m) -> comes_to P n -> comes_to Q n.
Proof. intros H C. induction C as [n Hs Hn IH]. constructor; auto. Qed.

Lemma reach_trans k l n m o : reach k n m -> reach l m o -> reach (k + l) n o.
Proof. induction 1; cbn; intros; [assumption|]. econstructor; eauto. Qed.

Lemma reach_run k n m : reach k n m -> exists sched, run sched n = Some m.
Proof.
  induction 1 as [n|k a n n1 m H R (sched & E)]; [exists []; reflexivity|].
  exists (a :: sched). cbn. rewrite H. exact E.
Qed.

Lemma run_reach sched : forall n m, run sched n = Some m -> reach (length sched) n m.
Proof.
  induction sched as [|a sched IH]; cbn; intros n m H; [injection H as <-; constructor|].
  destruct (step a n) as [n1|] eqn:E; [|discriminate]. econstructor; eauto.
Qed.

(** ** Every schedule ends *)

Inductive child : prog -> prog -> Prop :=
| ch_dial c a k h : child k (Dial c a k h)
| ch_refused c a k h : child h (Dial c a k h)
| ch_accept c k : child k (Accept c k)
| ch_write c b k : child k (Write c b k)
| ch_read1 c k r : child (k r) (Read1 c k)
| ch_readN c n k h r : child (k r) (ReadN c n k h)
| ch_eof c n k h : child h (ReadN c n k h)
| ch_close c k : child k (Close c k)
| ch_lock k : child k (Lock k)
| ch_unlock k : child k (Unlock k).

Lemma child_wf p : Acc child p.
Proof.
  induction p; constructor; intros q Hq; inversion Hq; subst; auto.
Qed.

Definition moved (l' l : list proc) : Prop :=
  exists i p p', nth_error l i = Some p /\ l' = set_nth i p' l /\ child (p_prog p') (p_prog p).

Lemma moved_wf l : Acc moved l.
Proof.
  induction l as [|p l IH].
  - constructor. intros l' (i & p & p' & H & _). destruct i; discriminate.
  - destruct p as [pr lk]. revert lk. generalize (child_wf pr). intros A.
    revert l IH. induction A as [pr _ IHp]. intros l IH. induction IH as [l Hl IHl]. intros lk.
    constructor. intros l' (i & p & p' & H & -> & C). destruct i as [|i]; cbn in *.
    + injection H as <-. destruct p' as [pr' lk']. apply IHp; [exact C|]. constructor. exact Hl.
    + apply IHl. exists i, p, p'. auto.
Qed.

Definition weight (w : way) : nat := if w_eof w then 0 else S (length (w_wire w)).
Definition weights (l : list conn) : nat := fold_right (fun x n => weight (c_out x) + weight (c_back x) + n) 0 l.

Lemma deliver_weight w w' : deliver w = Some w' -> weight w' < weight w.
Proof.
  destruct w as [bf wi cl eo]. unfold deliver, weight. cbn. destruct eo; [discriminate|].
  destruct wi as [|c wi]; destruct cl; cbn; try discriminate; intros [= <-]; cbn; lia.
Qed.

Lemma weights_set c x x' l : nth_error l c = Some x ->
  weight (c_out x') + weight (c_back x') < weight (c_out x) + weight (c_back x) ->
  weights (set_nth c x' l) < weights l.
Proof.
  revert c. induction l as [|y l IH]; intros [|c] H L; cbn in *; try discriminate.
  - injection H as ->. lia.
  - specialize (IH _ H L). unfold weights in IH. lia.
Qed.

Lemma act_child i p x p' x' : act i p x = Some (p', x') -> child p' p.
Proof.
  destruct p as [o|e| |c a k h|c k|c b k|c k|c n k h|c k|k|k]; cbn [act]; try discriminate.
  - destruct (_ && _); [|discriminate]. destruct (c_at x); [|intros [= <- <-]; constructor].
    destruct (address_dec _ _); intros [= <- <-]; constructor.
  - destruct (_ && _); [|discriminate]. intros [= <- <-]. constructor.
  - destruct (writes _ _ _); [|discriminate]. intros [= <- <-]. constructor.
  - destruct (reads _ _ _) as [[r y]|]; [|discriminate]. intros [= <- <-]. constructor.
  - destruct (reads _ _ _) as [[[r|] y]|]; [| |discriminate]; intros [= <- <-]; constructor.
  - destruct (writes _ _ _); [|discriminate]. intros [= <- <-]. constructor.
Qed.

Lemma step_moves i n n1 : step (Run i) n = Some n1 -> moved (n_procs n1) (n_procs n).
Proof.
  intros H. apply run_inv in H. destruct H as (p & Hp & [(p' & L & ->)|(c & x & pr' & x' & U & C & A & ->)]).
  - exists i, p, p'. split; [auto|]. split; [reflexivity|]. unfold lock_act in L.
    destruct (p_prog p); try discriminate.
    + destruct (n_lock n); [discriminate|]. injection L as <-. constructor.
    + injection L as <-. constructor.
  - exists i, p, (mkProc pr' (p_locked p)). split; [auto|]. split; [reflexivity|]. cbn. eapply act_child; eauto.
Qed.

Lemma step_ends_acc : forall n, Acc (fun m n => exists a, step a n = Some m) n.
Proof.
  intros [ps cs lk]. revert cs. induction (moved_wf ps) as [ps _ IHp]. intros cs.
  remember (weights cs) as w eqn:Ew. revert cs Ew. induction w as [w IHw] using lt_wf_ind. intros cs ->.
  constructor. intros [ps' cs' lk'] ([i|c out] & H).
  - assert (M := step_moves _ _ _ H). cbn in M.
    assert (lk' = lk) as ->.
    { apply run_inv in H. destruct H as (p & _ & [(? & _ & E)|(? & ? & ? & ? & _ & _ & _ & E)]); injection E; auto. }
    apply IHp. exact M.
  - rewrite step_deliver in H. cbn in H. destruct (nth_error cs c) as [x|] eqn:C; [|discriminate].
    destruct (deliver_on out x) as [x'|] eqn:D; [|discriminate]. injection H as <- <- <-.
    eapply IHw; [|reflexivity]. eapply weights_set; [exact C|].
    unfold deliver_on in D. destruct out, (deliver _) as [w|] eqn:Dv in D; try discriminate; injection D as <-; cbn;
      apply deliver_weight in Dv; lia.
Qed.

(** An invariant, and what it means once nothing can happen any more. *)
Lemma comes_invariant (I P : net -> Prop) :
  (forall a n m, I n -> step a n = Some m -> I m) -> (forall n, I n -> stuck n -> P n) ->
  forall n, I n -> comes_to P n.
Proof.
  intros HI HP n. induction (step_ends_acc n) as [n _ IH]. intros Hn. constructor; [auto|].
  intros a m H. apply IH; eauto.
Qed.
