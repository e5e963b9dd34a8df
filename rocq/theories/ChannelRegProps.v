(* C49: one channel per publisher per process. *)

From Coq Require Import List Arith Bool Lia.
From Verif Require Import Dict ChannelRegModel.
Import ListNotations.

Section Spec.
Context {K C : Type} `{Dec K} `{Dec C}.
Notation trace := (list (op K C * answer)).

(** Who uses the channel of a publisher: those whose registration returned one and who have not
    left. *)
Fixpoint users (k : K) (tr : trace) : list C :=
  match tr with
  | [] => []
  | (o, a) :: tr =>
      match o, a with
      | Register k' c, Joined _ | Created k' c, Joined _ => if dec k k' then sadd c (users k tr) else users k tr
      | Unregister k' c, Left | Unregister k' c, Closed _ => if dec k k' then sdel c (users k tr) else users k tr
      | _, _ => users k tr
      end
  end.

(** The channel a user was given. *)
Fixpoint given (k : K) (c : C) (tr : trace) : option nat :=
  match tr with
  | [] => None
  | (o, a) :: tr =>
      match o, a with
      | Register k' c', Joined n | Created k' c', Joined n => if dec k k' then if dec c c' then Some n else given k c tr else given k c tr
      | _, _ => given k c tr
      end
  end.

(** The registrations waiting for a channel to be created. *)
Fixpoint creating (tr : trace) : list (K * C) :=
  match tr with
  | [] => []
  | (o, a) :: tr =>
      match o, a with
      | Register k c, Suspended => creating tr ++ [(k, c)]
      | Created k c, Joined _ | CreateFailed k c, Failed => sdel (k, c) (creating tr)
      | _, _ => creating tr
      end
  end.

(** No registration begins while another one for the same publisher waits for its channel. *)
Fixpoint orderly (h : list (op K C)) : Prop :=
  match h with
  | [] => True
  | o :: h => orderly h /\
      match o with
      | Register k c => forall c', ~ In (k, c') (creating (snd (after h)))
      | _ => True
      end
  end.

(** ** Proofs *)

Record Inv (tr : trace) (s : mgr K C) : Prop := {
  I_reg : forall k n, get k (registry s) = Some n -> get n (chans s) = Some (Chan k (users k tr) true) /\ users k tr <> [];
  I_none : forall k, get k (registry s) = None -> users k tr = [];
  I_open : forall n ch, get n (chans s) = Some ch -> ch_open ch = true -> get (ch_key ch) (registry s) = Some n;
  I_next : forall n ch, get n (chans s) = Some ch -> n < next s;
  I_given : forall k c, In c (users k tr) -> given k c tr = get k (registry s);
  I_pend : pending s = creating tr;
  I_free : forall k c, In (k, c) (pending s) -> get k (registry s) = None;
  I_one : NoDup (map fst (pending s));
  I_nd : forall k, NoDup (users k tr)
}.

Lemma sadd_not_nil (c : C) l : sadd c l <> [].
Proof. intros E. assert (I : In c (sadd c l)) by (apply In_sadd; auto). rewrite E in I. destruct I. Qed.

Lemma NoDup_fst_sdel (p : K * C) l : NoDup (map fst l) -> NoDup (map fst (sdel p l)).
Proof.
  induction l as [|x l IH]; intros N; [exact N|]. inversion N; subst. unfold sdel. cbn [filter].
  destruct (negb (eqd p x)); [|exact (IH H4)]. cbn [map]. constructor; [|exact (IH H4)].
  intros I. apply H3. apply in_map_iff in I. destruct I as (y & E & Iy). apply filter_In in Iy. apply in_map_iff. exists y. tauto.
Qed.

Lemma inv_step o s tr s' a :
  Inv tr s -> match o with Register k c => forall c', ~ In (k, c') (creating tr) | _ => True end ->
  step o s = (s', a) -> Inv ((o, a) :: tr) s'.
Proof.
  intros I Ok E. destruct I as [Ireg Inone Iopen Inext Igiven Ipend Ifree Ione Ind]. destruct o as [k c|k c|k c|k c]; cbn [step] in E.
  - destruct (get k (registry s)) as [n|] eqn:G.
    + destruct (Ireg k n G) as [Gc Nn]. rewrite Gc in E. injection E as <- <-. unfold add_client. cbn [ch_key ch_clients ch_open].
      constructor; cbn [registry chans next pending users given creating]; auto.
      * intros k' n' G'. rewrite get_put. destruct (dec k' k) as [->|Dk].
        -- rewrite G in G'. injection G' as <-. destruct (dec n n); [|congruence]. split; [reflexivity|apply sadd_not_nil].
        -- destruct (Ireg k' n' G') as [Gc' Nn']. destruct (dec n' n) as [->|]; [rewrite Gc in Gc'; injection Gc' as F; congruence|auto].
      * intros k' G'. destruct (dec k' k) as [->|]; [congruence|apply Inone; exact G'].
      * intros n' ch G' O. rewrite get_put in G'. destruct (dec n' n) as [->|]; [injection G' as <-; exact G|exact (Iopen n' ch G' O)].
      * intros n' ch G'. rewrite get_put in G'. destruct (dec n' n) as [->|]; [exact (Inext _ _ Gc)|exact (Inext _ _ G')].
      * intros k' c' Ic. destruct (dec k' k) as [->|]; [|apply Igiven; exact Ic].
        destruct (dec c' c) as [->|Dc]; [symmetry; exact G|]. apply In_sadd in Ic. destruct Ic as [->|Ic]; [congruence|].
        rewrite (Igiven k c' Ic). reflexivity.
      * intros k'. destruct (dec k' k) as [->|]; [apply NoDup_sadd; auto|auto].
    + injection E as <- <-. constructor; cbn [registry chans next pending users given creating]; auto.
      * rewrite Ipend. reflexivity.
      * intros k' c' Ip. apply in_app_or in Ip. destruct Ip as [Ip|[Ip|[]]]; [exact (Ifree _ _ Ip)|]. injection Ip as <- <-. exact G.
      * rewrite map_app. cbn [map fst]. assert (Nk : ~ In k (map fst (pending s))).
        { rewrite Ipend. intros Ik. apply in_map_iff in Ik. destruct Ik as ([k' c'] & Ek & Ik). cbn in Ek. subst k'. exact (Ok c' Ik). }
        clear -Ione Nk. induction (map fst (pending s)) as [|x l IH]; [constructor; [exact Nk|constructor]|].
        apply NoDup_cons_iff in Ione. destruct Ione as [Nx Nl]. cbn in Nk |- *. constructor; [|apply IH; auto].
        intros Ix. apply in_app_or in Ix. destruct Ix as [Ix|[->|[]]]; [exact (Nx Ix)|apply Nk; auto].
  - destruct (mem (k, c) (pending s)) eqn:M; [|injection E as <- <-; constructor; cbn [users given creating]; auto].
    injection E as <- <-. unfold add_client. cbn [ch_key ch_clients ch_open]. apply mem_In in M.
    assert (G : get k (registry s) = None) by (exact (Ifree k c M)).
    assert (U : users k tr = []) by (exact (Inone k G)).
    assert (Fresh : forall n ch, get n (chans s) = Some ch -> n <> next s) by (intros n ch Gn ->; specialize (Inext _ _ Gn); lia).
    constructor; cbn [registry chans next pending users given creating].
    + intros k' n' G'. rewrite get_put in G'. rewrite get_put. destruct (dec k' k) as [->|Dk].
      * injection G' as <-. destruct (dec (next s) (next s)); [|congruence]. rewrite U. split; [reflexivity|apply sadd_not_nil].
      * destruct (Ireg k' n' G') as [Gc' Nn']. destruct (dec n' (next s)) as [->|]; [destruct (Fresh _ _ Gc'); reflexivity|auto].
    + intros k' G'. rewrite get_put in G'. destruct (dec k' k); [discriminate|auto].
    + intros n' ch G' O. rewrite get_put in G'. rewrite get_put. destruct (dec n' (next s)) as [->|].
      * injection G' as <-. cbn [ch_key]. destruct (dec k k); [reflexivity|congruence].
      * specialize (Iopen _ _ G' O). destruct (dec (ch_key ch) k) as [F|]; [rewrite F in Iopen; congruence|exact Iopen].
    + intros n' ch G'. rewrite get_put in G'. destruct (dec n' (next s)) as [->|]; [lia|]. specialize (Inext _ _ G'). lia.
    + intros k' c' Ic. rewrite get_put. destruct (dec k' k) as [->|].
      * rewrite U in Ic. apply In_sadd in Ic. destruct Ic as [->|[]]. destruct (dec c c); [reflexivity|congruence].
      * apply Igiven. exact Ic.
    + rewrite Ipend. reflexivity.
    + intros k' c' Ip. rewrite get_put. apply In_sdel in Ip. destruct Ip as [Dp Ip]. destruct (dec k' k) as [->|]; [exfalso|exact (Ifree _ _ Ip)].
      assert (Ec : c' = c).
      { clear -Ione M Ip. induction (pending s) as [|[x y] l IH]; [destruct M|]. cbn [map fst] in Ione. apply NoDup_cons_iff in Ione. destruct Ione as [Nx Nl].
        destruct M as [M|M], Ip as [Ip|Ip].
        - congruence.
        - injection M as -> ->. destruct Nx. apply in_map_iff. exists (k, c'). auto.
        - injection Ip as -> ->. destruct Nx. apply in_map_iff. exists (k, c). auto.
        - auto. }
      congruence.
    + apply NoDup_fst_sdel. exact Ione.
    + intros k'. destruct (dec k' k) as [->|]; [apply NoDup_sadd; auto|auto].
  - destruct (mem (k, c) (pending s)) eqn:M; injection E as <- <-.
    + constructor; cbn [registry chans next pending users given creating]; auto.
      * rewrite Ipend. reflexivity.
      * intros k' c' Ip. apply In_sdel in Ip. apply (Ifree k' c'). tauto.
      * apply NoDup_fst_sdel. exact Ione.
    + constructor; cbn [users given creating]; auto.
  - destruct (get k (registry s)) as [n|] eqn:G; [|injection E as <- <-; constructor; cbn [users given creating]; auto].
    destruct (Ireg k n G) as [Gc Nn]. rewrite Gc in E. cbn [ch_key ch_clients ch_open] in E.
    destruct (mem c (users k tr)) eqn:M; [|injection E as <- <-; constructor; cbn [users given creating]; auto].
    destruct (sdel c (users k tr)) as [|c0 cs] eqn:Es.
    + injection E as <- <-. constructor; cbn [registry chans next pending users given creating]; auto.
      * intros k' n' G'. rewrite get_del in G'. destruct (dec k' k) as [->|Dk]; [discriminate|].
        destruct (Ireg k' n' G') as [Gc' Nn']. rewrite get_put. destruct (dec n' n) as [->|]; [rewrite Gc in Gc'; injection Gc' as F; congruence|auto].
      * intros k' G'. rewrite get_del in G'. destruct (dec k' k) as [->|]; [exact Es|auto].
      * intros n' ch G' O. rewrite get_put in G'. destruct (dec n' n) as [->|Dn]; [injection G' as <-; discriminate|].
        rewrite get_del. specialize (Iopen _ _ G' O). destruct (dec (ch_key ch) k) as [F|]; [rewrite F in Iopen; congruence|exact Iopen].
      * intros n' ch G'. rewrite get_put in G'. destruct (dec n' n) as [->|]; [exact (Inext _ _ Gc)|exact (Inext _ _ G')].
      * intros k' c' Ic. rewrite get_del. destruct (dec k' k) as [->|]; [rewrite Es in Ic; destruct Ic|auto].
      * intros k' c' Ip. rewrite get_del. destruct (dec k' k); [reflexivity|exact (Ifree _ _ Ip)].
      * intros k'. destruct (dec k' k) as [->|]; [apply NoDup_sdel; auto|auto].
    + injection E as <- <-. constructor; cbn [registry chans next pending users given creating]; auto.
      * intros k' n' G'. rewrite get_put. destruct (dec k' k) as [->|Dk].
        -- rewrite G in G'. injection G' as <-. destruct (dec n n); [|congruence]. rewrite Es. split; [reflexivity|discriminate].
        -- destruct (Ireg k' n' G') as [Gc' Nn']. destruct (dec n' n) as [->|]; [rewrite Gc in Gc'; injection Gc' as F; congruence|auto].
      * intros k' G'. destruct (dec k' k) as [->|]; [congruence|auto].
      * intros n' ch G' O. rewrite get_put in G'. destruct (dec n' n) as [->|]; [injection G' as <-; exact G|exact (Iopen n' ch G' O)].
      * intros n' ch G'. rewrite get_put in G'. destruct (dec n' n) as [->|]; [exact (Inext _ _ Gc)|exact (Inext _ _ G')].
      * intros k' c' Ic. apply Igiven. destruct (dec k' k) as [->|]; [apply In_sdel in Ic; tauto|exact Ic].
      * intros k'. destruct (dec k' k) as [->|]; [apply NoDup_sdel; auto|auto].
Qed.

Lemma inv_after h : orderly h -> Inv (snd (after h)) (fst (after h)).
Proof.
  induction h as [|o h IH]; intros Ok.
  - cbn. constructor; cbn; try discriminate; auto; try constructor; intros; tauto.
  - destruct Ok as [Ok1 Ok2]. specialize (IH Ok1). cbn [after]. destruct (after h) as [s tr]. cbn [fst snd] in *.
    destruct (step o s) as [s' a] eqn:E. cbn [fst snd]. exact (inv_step o s tr s' a IH Ok2 E).
Qed.

End Spec.

(** The running channels of a publisher. *)
Definition running {K C} `{Dec K} `{Dec C} (s : mgr K C) (k : K) (n : nat) (cs : list C) : Prop :=
  get n (chans s) = Some (Chan k cs true).

(** C49.  At any time the users of a publisher share one running channel, the one each of them was
    given, whose clients are exactly they; without users no channel of the publisher runs.
    Partial: for histories in which no registration begins while another one for the same
    publisher waits for its channel (see the counterexample below). *)
Theorem C49_users_share_one_channel_partial :
  forall (K C : Type) (DK : Dec K) (DC : Dec C) (h : list (op K C)), orderly h ->
    let s := fst (after h) in let tr := snd (after h) in
    forall k,
      (users k tr = [] -> forall n cs, ~ running s k n cs) /\
      (users k tr <> [] -> exists n,
         running s k n (users k tr) /\ (forall n' cs, running s k n' cs -> n' = n) /\
         (forall c, In c (users k tr) -> given k c tr = Some n)).
Proof.
  intros K C DK DC h Ok s tr k. pose proof (inv_after h Ok) as I. fold s tr in I. destruct I as [Ireg Inone Iopen Inext Igiven Ipend Ifree Ione].
  split.
  - intros U n cs R. pose proof (Iopen _ _ R eq_refl) as G. cbn in G. destruct (Ireg _ _ G) as [_ F]. contradiction.
  - intros U. destruct (get k (registry s)) as [n|] eqn:G; [|destruct (U (Inone _ G))].
    destruct (Ireg _ _ G) as [Gc _]. exists n. split; [exact Gc|]. split.
    + intros n' cs R. pose proof (Iopen _ _ R eq_refl) as G'. cbn in G'. congruence.
    + intros c Ic. rewrite (Igiven k c Ic). exact G.
Qed.
Print Assumptions C49_users_share_one_channel_partial.

(** C49.  Leaving is answered by what it does: a user's leaving closes the shared channel if it is
    the last one and otherwise leaves it running; leaving without being a user is refused. *)
Theorem C49_closed_when_the_last_user_leaves_partial :
  forall (K C : Type) (DK : Dec K) (DC : Dec C) (h : list (op K C)) k c, orderly h ->
    let s := fst (after h) in let tr := snd (after h) in
    let s' := fst (step (Unregister k c) s) in let a := snd (step (Unregister k c) s) in
    (In c (users k tr) ->
       exists n, given k c tr = Some n /\
         ((a = Closed n /\ (forall x, In x (users k tr) -> x = c) /\ (forall m cs, ~ running s' k m cs)) \/
          (a = Left /\ (exists x, In x (users k tr) /\ x <> c) /\ running s' k n (sdel c (users k tr))))) /\
    (~ In c (users k tr) -> a = KeyError /\ s' = s).
Proof.
  intros K C DK DC h k c Ok s tr s' a. pose proof (inv_after h Ok) as I. fold s tr in I. assert (I' := I).
  destruct I' as [Ireg Inone Iopen Inext Igiven Ipend Ifree Ione Ind].
  assert (E : step (Unregister k c) s = (s', a)) by (unfold s', a; destruct (step _ s); reflexivity).
  clearbody s' a. cbn [step] in E.
  destruct (get k (registry s)) as [n|] eqn:G.
  - destruct (Ireg k n G) as [Gc Nn]. rewrite Gc in E. cbn [ch_key ch_clients ch_open] in E.
    split.
    + intros Ic. exists n. split; [rewrite (Igiven k c Ic); exact G|].
      assert (M : mem c (users k tr) = true) by (apply mem_In; exact Ic). rewrite M in E.
      destruct (sdel c (users k tr)) as [|c0 cs] eqn:Es; injection E as <- <-.
      * left. split; [reflexivity|]. split.
        -- intros x Ix. destruct (dec x c) as [->|D]; [reflexivity|]. assert (F : In x (sdel c (users k tr))) by (apply In_sdel; auto).
           rewrite Es in F. destruct F.
        -- intros m cs R. unfold running in R. cbn [fst chans] in R. rewrite get_put in R.
           destruct (dec m n) as [->|Dm]; [discriminate|]. pose proof (Iopen _ _ R eq_refl) as F. cbn in F. congruence.
      * right. split; [reflexivity|]. split.
        -- exists c0. assert (F : In c0 (sdel c (users k tr))) by (rewrite Es; left; reflexivity). apply In_sdel in F. tauto.
        -- unfold running. cbn [fst chans]. rewrite get_put. destruct (dec n n); [reflexivity|congruence].
    + intros Nc. assert (M : mem c (users k tr) = false) by (apply mem_false; exact Nc). rewrite M in E. injection E as <- <-. auto.
  - split; [intros Ic; rewrite (Inone k G) in Ic; destruct Ic|]. intros _. injection E as <- <-. auto.
Qed.
Print Assumptions C49_closed_when_the_last_user_leaves_partial.

(** C49.  A registration for a publisher with a running channel returns it at once; the channel of
    another registration is new. *)
Theorem C49_registering_joins_the_running_channel_partial :
  forall (K C : Type) (DK : Dec K) (DC : Dec C) (h : list (op K C)) k c, orderly h ->
    let s := fst (after h) in
    snd (step (Register k c) s) = match get k (registry s) with Some n => Joined n | None => Suspended end /\
    (forall n, snd (step (Register k c) s) = Joined n -> running s k n (users k (snd (after h)))) /\
    (forall n, snd (step (Created k c) s) = Joined n -> get n (chans s) = None).
Proof.
  intros K C DK DC h k c Ok s. pose proof (inv_after h Ok) as I. fold s in I. destruct I as [Ireg Inone Iopen Inext Igiven Ipend Ifree Ione Ind].
  cbn [step]. split; [|split].
  - destruct (get k (registry s)) as [n|] eqn:G; [|reflexivity]. destruct (Ireg k n G) as [-> _]. reflexivity.
  - intros n. destruct (get k (registry s)) as [m|] eqn:G; [|discriminate]. destruct (Ireg k m G) as [Gc _]. rewrite Gc.
    intros E. injection E as <-. exact Gc.
  - intros n. destruct (mem (k, c) (pending s)); [|discriminate]. intros E. injection E as <-.
    destruct (get (next s) (chans s)) as [ch|] eqn:Gn; [|reflexivity]. specialize (Inext _ _ Gn). lia.
Qed.
Print Assumptions C49_registering_joins_the_running_channel_partial.

(** Publishers 1 and 2, subscribers 10-12: newest first. *)
Example C49_case :
  let h := [Unregister 1 10; Created 2 10; Register 1 11; Created 1 10; Register 2 10; Register 1 10] in
  orderly h /\ users 1 (snd (after h)) = [11] /\ given 1 11 (snd (after h)) = Some 0 /\
  running (fst (after h)) 1 0 [11] /\ running (fst (after h)) 2 1 [10] /\
  snd (step (Unregister 1 11) (fst (after h))) = Closed 0.
Proof.
  split; [|repeat split]. cbn. intuition congruence.
Qed.

(** C49.  Two subscribers whose registrations overlap are given different channels.  The first
    channel is then lost from the registry: when its user leaves, the registry raises KeyError and
    the channel keeps running, with the user who left as its client. *)
Theorem C49_overlapping_registrations_refuted :
  exists h : list (op nat nat),
    let s := fst (after h) in let tr := snd (after h) in
    users 1 tr = [10; 11] /\ given 1 10 tr = Some 0 /\ given 1 11 tr = Some 1 /\
    running s 1 0 [10] /\ running s 1 1 [11] /\
    step (Unregister 1 10) s = (s, KeyError).
Proof.
  exists [Created 1 11; Created 1 10; Register 1 11; Register 1 10]. cbn. repeat split.
Qed.
Print Assumptions C49_overlapping_registrations_refuted.
