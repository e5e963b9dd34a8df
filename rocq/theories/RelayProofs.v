(* What adding relay units does to a component tree. *)

From Coq Require Import List NArith Arith Bool Lia Permutation.
From Verif Require Import Dict CodecModel TreeModel TreeProofs.
Import ListNotations.

(** ** Specification *)

(** No stream is called like a relay unit. *)
Definition no_relay_names (loc : list pystr) (cs : list comp) : Prop :=
  forall y s, holds loc cs y -> In s (streams_of (snd y)) ->
    forall t, fst s <> relay_in_prefix ++ t /\ fst s <> relay_out_prefix ++ t.

(** A boundary endpoint of a collection, with the name of its relay unit. *)
Definition boundary (loc : list pystr) (cs : list comp) (y : located) (s : pystr * kind) (n : pystr) : Prop :=
  holds loc cs y /\ (exists m ss cs' l net, snd y = CollC m ss cs' l net) /\
  In s (streams_of (snd y)) /\
  match snd s with
  | Plain => False
  | InputRelay => n = relay_in_prefix ++ fst s
  | OutputRelay => n = relay_out_prefix ++ fst s
  end.

(** ** Lemmas *)

Lemma relay_name_spec s n : relay_name s = Some n <->
  match snd s with Plain => False | InputRelay => n = relay_in_prefix ++ fst s | OutputRelay => n = relay_out_prefix ++ fst s end.
Proof. unfold relay_name. destruct (snd s); split; intros H; try discriminate; try contradiction; try (injection H as <-; reflexivity); subst; reflexivity. Qed.

Lemma relay_name_inj s t n : relay_name s = Some n -> relay_name t = Some n -> s = t.
Proof.
  destruct s as [a ka], t as [b kb]. unfold relay_name, relay_in_prefix, relay_out_prefix. cbn.
  destruct ka, kb; intros E F; try discriminate; injection E as <-; injection F as F; try discriminate F; congruence.
Qed.

Lemma add_relays_all_Forall2 cs : forall cs', add_relays_all cs = Some cs' <-> Forall2 (fun c c' => add_relays c = Some c') cs cs'.
Proof.
  induction cs as [|c cs IH]; intros cs'; cbn [add_relays_all].
  - split; [intros E; injection E as <-; constructor|intros H; inversion H; reflexivity].
  - destruct (add_relays c) as [c'|] eqn:E.
    + destruct (add_relays_all cs) as [ds|].
      * split; [intros F; injection F as <-; constructor; [exact E|apply IH; reflexivity]|].
        intros H. inversion H as [|x y xs ys Hx Hs]; subst. apply IH in Hs. congruence.
      * split; [discriminate|]. intros H. inversion H as [|x y xs ys Hx Hs]; subst. apply IH in Hs. congruence.
    + split; [discriminate|]. intros H. inversion H as [|x y xs ys Hx Hs]; subst. congruence.
Qed.

Lemma add_relays_same c c' : add_relays c = Some c' -> name_of c' = name_of c /\ streams_of c' = streams_of c.
Proof.
  destruct c as [n ss o f|n ss cs l net]; [intros E; injection E as <-; auto|]. rewrite add_relays_coll.
  destruct (add_relays_all cs); [|discriminate]. destruct (relay_units ss (map name_of cs)); [|discriminate].
  intros E. injection E as <-. auto.
Qed.

Lemma add_relays_all_names cs cs' : add_relays_all cs = Some cs' -> map name_of cs' = map name_of cs.
Proof.
  rewrite add_relays_all_Forall2. induction 1 as [|c c' cs cs' E H IH]; [reflexivity|]. cbn [map].
  rewrite IH, (proj1 (add_relays_same _ _ E)). reflexivity.
Qed.

Lemma relay_units_spec ss : forall taken rs, relay_units ss taken = Some rs ->
  (forall r, In r rs <-> exists s n, In s ss /\ relay_name s = Some n /\ r = relay_unit n) /\
  (NoDup taken -> NoDup (taken ++ map name_of rs)).
Proof.
  induction ss as [|s ss IH]; intros taken rs E; cbn [relay_units] in E.
  - injection E as <-. split; [|cbn; rewrite app_nil_r; auto]. intros r. split; [intros []|intros (s & n & [] & _)].
  - destruct (relay_name s) as [n|] eqn:En.
    + destruct (mem n taken) eqn:M; [discriminate|]. destruct (relay_units ss (taken ++ [n])) as [rs'|] eqn:E'; [|discriminate].
      injection E as <-. destruct (IH _ _ E') as (I1 & I2). split.
      * intros r. cbn [In]. rewrite I1. split.
        -- intros [<-|(s' & n' & I & F & ->)]; [exists s, n; auto|exists s', n'; auto].
        -- intros (s' & n' & [->|I] & F & ->); [left; congruence|right; exists s', n'; auto].
      * intros N. cbn [map name_of relay_unit]. change (n :: map name_of rs') with ([n] ++ map name_of rs'). rewrite app_assoc. apply I2.
        apply NoDup_app_intro; [exact N|repeat constructor; intros []|]. intros x I [<-|[]]. apply mem_In in I. congruence.
    + destruct (IH _ _ E) as (I1 & I2). split; [|exact I2]. intros r. rewrite I1. split.
      * intros (s' & n' & I & F & ->). exists s', n'. split; [right; exact I|auto].
      * intros (s' & n' & [->|I] & F & ->); [congruence|exists s', n'; auto].
Qed.

(** The components of the system with relay units. *)
Lemma holds_added : forall loc ds y', holds loc ds y' -> forall cs cs' rs,
  ds = cs' ++ rs -> add_relays_all cs = Some cs' -> (forall r, In r rs -> exists n, r = relay_unit n) ->
  (exists y, holds loc cs y /\ fst y = fst y' /\ add_relays (snd y) = Some (snd y')) \/
  (exists y s n, boundary loc cs y s n /\ y' = (place y, relay_unit n)) \/
  (fst y' = loc /\ In (snd y') rs).
Proof.
  induction 1 as [loc ds d I|loc ds d y' I H IH]; intros cs cs' rs -> A R.
  - apply in_app_or in I. destruct I as [I|I]; [left|right; right; cbn; auto].
    apply add_relays_all_Forall2 in A.
    clear R. induction A as [|c c' cs cs' E A IHA]; [destruct I|]. destruct I as [->|I].
    + exists (loc, c). split; [apply holds_here; left; reflexivity|auto].
    + destruct (IHA I) as (y & Hy & E1 & E2). exists y. split; [|auto]. apply holds_each in Hy. destruct Hy as (x & Ix & Hx).
      apply holds_each. exists x. split; [right; exact Ix|exact Hx].
  - apply in_app_or in I. destruct I as [I|I].
    + assert (X : exists c, In c cs /\ add_relays c = Some d).
      { apply add_relays_all_Forall2 in A. clear -A I. induction A as [|c c' cs cs' E A IHA]; [destruct I|].
        destruct I as [->|I]; [exists c; split; [left; reflexivity|exact E]|]. destruct (IHA I) as (x & Ix & Ex). exists x. split; [right; exact Ix|exact Ex]. }
      destruct X as (c & Ic & Ec). pose proof (add_relays_same _ _ Ec) as (En & Es).
      destruct c as [n ss o f|n ss cs0 l net].
      * injection Ec as <-. inversion H; match goal with K : In _ (children_of _) |- _ => destruct K end.
      * rewrite add_relays_coll in Ec. destruct (add_relays_all cs0) as [cs1|] eqn:E0; [|discriminate].
        destruct (relay_units ss (map name_of cs0)) as [rs0|] eqn:Er; [|discriminate]. injection Ec as <-. cbn [name_of children_of] in *.
        destruct (IH cs0 cs1 rs0 eq_refl E0) as [(y & Hy & E1 & E2)|[(y & s & m & (Hy & Hb) & Ey)|(E1 & Ir)]].
        -- intros r Ir. apply (relay_units_spec _ _ _ Er) in Ir. destruct Ir as (s & m & _ & _ & ->). eauto.
        -- left. exists y. split; [|auto]. eapply holds_below; eauto.
        -- right. left. exists y, s, m. split; [|exact Ey]. split; [|exact Hb]. eapply holds_below; eauto.
        -- right. left. apply (relay_units_spec _ _ _ Er) in Ir. destruct Ir as (s & m & Is & Em & Eu).
           exists (loc, CollC n ss cs0 l net), s, m. split; [|destruct y' as [ly cy]; cbn in *; subst; reflexivity].
           split; [apply holds_here; exact Ic|]. split; [cbn; eauto 10|]. split; [exact Is|]. apply relay_name_spec. exact Em.
    + destruct (R d I) as (n & ->). inversion H; match goal with K : In _ (children_of _) |- _ => destruct K end.
Qed.

Lemma holds_added_orig loc cs y : holds loc cs y -> forall cs' rs, add_relays_all cs = Some cs' ->
  exists c', add_relays (snd y) = Some c' /\ holds loc (cs' ++ rs) (fst y, c').
Proof.
  assert (F : forall cs cs' c, add_relays_all cs = Some cs' -> In c cs -> exists c', add_relays c = Some c' /\ In c' cs').
  { clear. intros cs cs' c A I. apply add_relays_all_Forall2 in A. induction A as [|x x' xs xs' E A IHA]; [destruct I|].
    destruct I as [->|I]; [exists x'; split; [exact E|left; reflexivity]|]. destruct (IHA I) as (c' & Ec & Ic). exists c'. split; [exact Ec|right; exact Ic]. }
  induction 1 as [loc cs c I|loc cs c y I H IH]; intros cs' rs A; destruct (F _ _ _ A I) as (c' & Ec & Ic).
  - exists c'. split; [exact Ec|]. apply holds_here. apply in_or_app. left. exact Ic.
  - destruct c as [n ss o f|n ss cs0 l net].
    { inversion H; match goal with K : In _ (children_of _) |- _ => destruct K end. }
    rewrite add_relays_coll in Ec. destruct (add_relays_all cs0) as [cs1|] eqn:E0; [|discriminate].
    destruct (relay_units ss (map name_of cs0)) as [rs0|] eqn:Er; [|discriminate]. injection Ec as <-. cbn [name_of children_of] in *.
    destruct (IH cs1 rs0 E0) as (c' & Ec & Hc). exists c'. split; [exact Ec|]. eapply holds_below; [apply in_or_app; left; exact Ic|]. exact Hc.
Qed.

Lemma holds_relay loc cs cs' y s n : add_relays_all cs = Some cs' -> boundary loc cs y s n -> holds loc cs' (place y, relay_unit n).
Proof.
  intros A (H & (m & ss & cs0 & l & net & E) & Is & En). destruct (holds_added_orig _ _ _ H cs' [] A) as (c' & Ec & Hc). rewrite app_nil_r in Hc.
  apply relay_name_spec in En. destruct y as [ly cy]. cbn [fst snd] in *. subst cy. rewrite add_relays_coll in Ec.
  destruct (add_relays_all cs0) as [cs1|]; [|discriminate]. destruct (relay_units ss (map name_of cs0)) as [rs0|] eqn:Er; [|discriminate].
  injection Ec as <-. cbn [streams_of] in Is. unfold place. cbn [fst snd name_of].
  assert (Ir : In (relay_unit n) rs0) by (apply (relay_units_spec _ _ _ Er); eauto).
  assert (K : forall loc cs z, holds loc cs z -> In (relay_unit n) (children_of (snd z)) -> holds loc cs (place z, relay_unit n)).
  { clear. induction 1 as [loc cs c I|loc cs c z I H IH]; intros J.
    - eapply holds_below; [exact I|]. apply holds_here. exact J.
    - eapply holds_below; [exact I|]. exact (IH J). }
  apply (K _ _ _ Hc). cbn [snd children_of]. apply in_or_app. right. exact Ir.
Qed.

Lemma plain_app a b : plain a -> plain b -> plain (a ++ b).
Proof. intros A B I. apply in_app_or in I. destruct I; [exact (A H)|exact (B H)]. Qed.

Lemma well_named_added loc cs cs' : well_named loc cs -> no_relay_names loc cs -> add_relays_all cs = Some cs' -> well_named loc cs'.
Proof.
  intros W NR A. pose proof W as (W1 & W2 & W3). split; [exact W1|]. split; [rewrite (add_relays_all_names _ _ A); exact W2|].
  intros y' H. assert (X : cs' = cs' ++ []) by (rewrite app_nil_r; reflexivity).
  destruct (holds_added _ _ _ H cs cs' [] X A) as [(y & Hy & El & Ec)|[(y & s & n & Hb & ->)|(_ & [])]]; [intros r []| |].
  - destruct (add_relays_same _ _ Ec) as (En & Es). destruct (W3 y Hy) as (P1 & P2 & M). rewrite En, Es. split; [exact P1|]. split; [exact P2|].
    destruct y as [ly cy], y' as [ly' cy']. cbn [fst snd] in *. destruct cy as [m ss o f|m ss cs0 l net].
    + injection Ec as <-. exact M.
    + rewrite add_relays_coll in Ec. destruct (add_relays_all cs0) as [cs1|] eqn:E0; [|discriminate].
      destruct (relay_units ss (map name_of cs0)) as [rs0|] eqn:Er; [|discriminate]. injection Ec as <-.
      unfold members_differ in *. cbn [children_of streams_of] in *. rewrite map_app, (add_relays_all_names _ _ E0).
      apply NoDup_app_intro.
      * apply (relay_units_spec _ _ _ Er). exact (NoDup_app_l _ _ M).
      * exact (NoDup_app_r _ _ M).
      * intros x I J. apply in_app_or in I. destruct I as [I|I]; [exact (NoDup_app_disjoint _ _ x M I J)|].
        apply in_map_iff in I. destruct I as (r & <- & Ir). apply (relay_units_spec _ _ _ Er) in Ir. destruct Ir as (s & n & Is & Em & ->).
        apply in_map_iff in J. destruct J as (t & Et & It). cbn [name_of relay_unit] in Et.
        pose proof (NR _ t Hy It (fst s)) as (N1 & N2). apply relay_name_spec in Em. destruct (snd s); [contradiction|congruence..].
  - destruct Hb as (Hy & _ & Is & En). destruct (W3 y Hy) as (_ & P2 & _). specialize (P2 s Is). cbn [snd]. split; [|split].
    + cbn [name_of relay_unit]. destruct (snd s); [contradiction|..]; subst n; apply plain_app; auto; vm_compute; intuition discriminate.
    + cbn [streams_of relay_unit]. intros t [<-|[<-|[]]]; cbn [fst]; vm_compute; intuition discriminate.
    + unfold members_differ. cbn. repeat constructor; vm_compute; intuition discriminate.
Qed.
