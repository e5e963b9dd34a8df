(* Proofs about LocateModel: what the outcome of a call says about the moments it was under way. *)

From Coq Require Import String List Arith NArith Bool Lia.
From Verif Require Import Dict LocateModel LocateSpec LocateProofs.
Import ListNotations.
Open Scope N_scope.

Section Time.
Variable resolve : string -> string.
Variable refuses : addr -> bool.

Notation step := (step resolve refuses).
Notation run := (run resolve refuses).
Notation bindable := (bindable refuses).
Notation place := (place resolve).
Notation move := (move resolve refuses).
Notation pmove := (pmove resolve refuses).
Notation asks := (asks resolve).

(** ** Calls *)

(** What a step does to a call: nothing, or it is the step of that call, or its stop. *)
Lemma step_call w e i c ph : get i (agents w) = Some (mkAgent c ph) ->
  exists ph', get i (agents (step w e)) = Some (mkAgent c ph') /\ (forall o, ph = Done o -> ph' = Done o).
Proof.
  intros G. destruct (step_move resolve refuses w e) as [->|M]; [eauto|].
  remember (step w e) as w' eqn:X. clear X.
  destruct M as [j d Gj|j k a Gj Gk|e j d p p' Gj P|j port d p a reuse Gj A B|j port d n s Gj Gn L|j port d n s m Gj Gn L Kc
                 |j n d p Gj|a reuse listens B|n s Gn Ow]; unfold set_phase; cbn [agents].
  - rewrite get_put. destruct (dec i j) as [->|NE]; [congruence|eauto].
  - rewrite get_put. destruct (dec i k) as [->|NE]; [congruence|]. rewrite get_put.
    destruct (dec i j) as [->|NE2]; [|eauto]. rewrite G in Gj. injection Gj as -> ->. eexists. split; [reflexivity|].
    intros o E. discriminate.
  - rewrite get_put. destruct (dec i j) as [->|NE]; [|eauto]. rewrite G in Gj. injection Gj as <- <-.
    eexists. split; [reflexivity|]. intros o ->. inversion P.
  - rewrite get_put. destruct (dec i j) as [->|NE]; [|eauto]. rewrite G in Gj. injection Gj as <- <-.
    eexists. split; [reflexivity|]. intros o ->. inversion A.
  - rewrite get_put. destruct (dec i j) as [->|NE]; [|eauto]. rewrite G in Gj. injection Gj as <- ->.
    eexists. split; [reflexivity|]. intros o E. discriminate.
  - rewrite get_put. destruct (dec i j) as [->|NE]; [|eauto]. rewrite G in Gj. injection Gj as <- ->.
    eexists. split; [reflexivity|]. intros o E. discriminate.
  - unfold stop. rewrite Gj. cbn [agents]. rewrite get_put. destruct (dec i j) as [->|NE]; [|eauto].
    rewrite G in Gj. injection Gj as <- <-. eexists. split; [reflexivity|]. intros o ->. reflexivity.
  - eauto.
  - eauto.
Qed.

Lemma called_mono l l' i c : called (run init l) i c -> called (run init (l ++ l')) i c.
Proof.
  induction l' as [|e l' IH] using rev_ind; [now rewrite app_nil_r|]. intros H. rewrite app_assoc, run_one.
  destruct (IH H) as [ph G]. destruct (step_call _ e _ _ _ G) as [ph' [G' _]]. now exists ph'.
Qed.

Lemma ended_mono l l' i o : ended (run init l) i o -> ended (run init (l ++ l')) i o.
Proof.
  induction l' as [|e l' IH] using rev_ind; [now rewrite app_nil_r|]. intros H. rewrite app_assoc, run_one.
  destruct (IH H) as [c G]. destruct (step_call _ e _ _ _ G) as [ph' [G' D]]. exists c. now rewrite G', (D o eq_refl).
Qed.

(** ** Sockets *)

(** A socket after a step is new, or was there with the same address, option, kind and owner. *)
Lemma sock_back w e n s : In (n, s) (socks (step w e)) ->
  (next w <= n)%nat \/
  exists t, In (n, t) (socks w) /\ s_addr t = s_addr s /\ s_reuse t = s_reuse s /\ s_kind t = s_kind s /\ s_owner t = s_owner s /\
            (s_listens t = true -> s_listens s = true).
Proof.
  destruct (step_move resolve refuses w e) as [->|M]; [intros I; right; exists s; repeat split; auto|].
  remember (step w e) as w' eqn:X. clear X.
  destruct M as [j d Gj|j k a Gj Gk|e j d p p' Gj P|j port d p a reuse Gj A B|j port d m u Gj Gn L|j port d m u v Gj Gn L Kc
                 |j m d p Gj|a reuse listens B|m u Gn Ow]; unfold set_phase; cbn [socks]; intros I;
    try (right; exists s; now repeat split).
  - apply in_app_iff in I. destruct I as [I|[I|[]]]; [right; exists s; now repeat split|left]. injection I as <- _. lia.
  - apply get_In in Gn. assert (D : n = m /\ s = mkSock (s_addr u) (s_reuse u) true (s_kind u) (s_owner u) \/ In (n, s) (socks w)).
    { clear -I. induction (socks w) as [|[k x] l IH]; cbn in *.
      - destruct I as [I|[]]. injection I as <- <-. auto.
      - destruct (dec m k) as [->|NE]; cbn in I.
        + destruct I as [I|I]; [injection I as <- <-; auto|auto].
        + destruct I as [I|I]; [auto|]. destruct (IH I) as [?|?]; auto. }
    destruct D as [[-> ->]|I']; right; [exists u|exists s]; now repeat split.
  - apply In_del in I. right. exists s. now repeat split.
  - apply (stop_socks refuses _ _ _ _ _ _ _ Gj) in I. destruct I as [[I _]|[L _]]; [right; exists s; now repeat split|now left].
  - apply in_app_iff in I. destruct I as [I|[I|[]]]; [right; exists s; now repeat split|left]. injection I as <- _. lia.
  - apply In_del in I. right. exists s. now repeat split.
Qed.

(** Either no listening socket goes, or none comes. *)
Lemma goes_or_comes w e : inv w ->
  (forall n s, In (n, s) (socks w) -> s_listens s = true -> In (n, s) (socks (step w e))) \/
  (forall n s, In (n, s) (socks (step w e)) -> s_listens s = true -> In (n, s) (socks w)).
Proof.
  intros Iw. destruct (step_move resolve refuses w e) as [->|M]; [now left|]. remember (step w e) as w' eqn:X. clear X.
  destruct M as [j d Gj|j k a Gj Gk|e j d p p' Gj P|j port d p a reuse Gj A B|j port d m u Gj Gn L|j port d m u v Gj Gn L Kc
                 |j m d p Gj|a reuse listens B|m u Gn Ow]; unfold set_phase; cbn [socks]; try (left; now auto).
  - left. intros n s I _. apply in_app_iff. now left.
  - left. intros n s I Ls. apply In_put; [apply Iw|]. right. split; [|exact I]. intros ->.
    apply get_In in Gn. pose proof (proj1 (listener_None _ _) L _ _ I) as NL.
    apply (In_get m s _ (i_keys _ Iw)) in I. apply (In_get m u _ (i_keys _ Iw)) in Gn. rewrite Gn in I. injection I as <-.
    rewrite (NL eq_refl) in Ls. discriminate.
  - right. intros n s I _. apply In_del in I. tauto.
  - right. intros n s I Ls. apply (stop_socks refuses _ _ _ _ _ _ _ Gj) in I. destruct I as [[I _]|[_ [_ [_ [C _]]]]]; [exact I|congruence].
  - left. intros n s I _. apply in_app_iff. now left.
  - right. intros n s I _. apply In_del in I. tauto.
Qed.

(** ** Moments *)

Definition moment (l : list event) (i : nat) (P : world -> Prop) : Prop :=
  exists before after, l = before ++ after /\ pending (run init before) i /\ P (run init before).

Lemma moment_mono l l' i (P : world -> Prop) : moment l i P -> moment (l ++ l') i P.
Proof. intros [b [a [-> H]]]. exists b, (a ++ l'). rewrite app_assoc. auto. Qed.

Lemma moment_now l i (P : world -> Prop) : pending (run init l) i -> P (run init l) -> moment l i P.
Proof. intros H H'. exists l, []. rewrite app_nil_r. auto. Qed.

Lemma moment_before l e i (P : world -> Prop) : pending (run init l) i -> P (run init l) -> moment (l ++ [e]) i P.
Proof. intros. apply moment_mono. now apply moment_now. Qed.

(** The search has gone past [start] up to [p]. *)
Definition climbed (l : list event) (i : nat) (h : string) (start p : N) : Prop :=
  start <= p /\ forall q, start <= q < p -> q <> 25978 -> moment l i (fun w => taken refuses w (resolve h, q)).

Definition landed (l : list event) (i : nat) (c : call) (a : addr) (reuse : bool) : Prop :=
  (exists b port, demands c b /\ a = place b port /\ reuse = true) \/
  (exists h start, searches c h start /\ reuse = false /\
     (0 < start -> exists p, a = (resolve h, p) /\ p <= 65535 /\ p <> 25978 /\ climbed l i h start p)).

Definition allowed (c : call) : Prop :=
  match c with Ensure a auto env => may_start a auto env | StartCommand _ => False | _ => True end.

Definition aims (c : call) : addr := place (target c) 0.

Definition good (l : list event) (i : nat) (c : call) (ph : phase) : Prop :=
  match ph with
  | Forking | Connecting | Gone | Done HungUp => True
  | Greeting n => (n < next (run init l))%nat /\
      (forall s, In (n, s) (socks (run init l)) -> s_addr s = aims c) /\
      ((exists s, In (n, s) (socks (run init l)) /\ s_listens s = true) \/ moment l i (fun w => ~ served w (aims c)))
  | Binding a => allowed c /\ demands c a
  | Searching h p => allowed c /\ exists start, searches c h start /\ (0 < start -> climbed l i h start p)
  | Starting n | Stuck n => allowed c /\ (n < next (run init l))%nat /\
      forall s, In (n, s) (socks (run init l)) -> landed l i c (s_addr s) (s_reuse s)
  | Done (Started a) => allowed c /\ exists reuse, landed l i c a reuse
  | Done Found => moment l i (fun w => served w (aims c))
  | Done Refused => match c with
                    | Ensure a auto env => ~ may_start a auto env /\ moment l i (fun w => ~ served w (aims c))
                    | _ => True
                    end
  | Done Unavailable => allowed c /\
      (kind_of c = Graph -> exists a, demands c a /\ (port_ok (snd a) -> moment l i (fun w => ~ free_for_reuse refuses w (at_ resolve a))))
  | Done NoFreePorts => allowed c /\ exists h start, searches c h start /\ (0 < start -> forall q, start <= q <= 65535 -> q <> 25978 -> moment l i (fun w => taken refuses w (resolve h, q)))
  end.

Lemma climbed_mono l l' i h start p : climbed l i h start p -> climbed (l ++ l') i h start p.
Proof. intros [H K]. split; [exact H|]. intros q Q N. apply moment_mono. auto. Qed.

Lemma landed_mono l l' i c a r : landed l i c a r -> landed (l ++ l') i c a r.
Proof.
  intros [H|[h [st [S [R K]]]]]; [now left|right]. exists h, st. split; [exact S|]. split; [exact R|]. intros P.
  destruct (K P) as [p [? [? [? ?]]]]. exists p. split; [assumption|]. split; [assumption|]. split; [assumption|]. now apply climbed_mono.
Qed.

(** A call that is not moved by a step stays good. *)
Lemma good_stays l e i c ph : get i (agents (run init (l ++ [e]))) = Some (mkAgent c ph) -> good l i c ph -> good (l ++ [e]) i c ph.
Proof.
  intros G. pose proof (inv_run resolve refuses l) as Iw. rewrite run_one in G.
  assert (NX : (next (run init l) <= next (step (run init l) e))%nat).
  { destruct (step_move resolve refuses (run init l) e) as [->|M]; [lia|].
    destruct M; unfold set_phase; cbn [next]; try lia. unfold stop. rewrite H. cbn [next]. lia. }
  destruct ph as [| |n|a|h p|n|n|o|]; cbn [good]; auto.
  - intros [L [A D]]. rewrite run_one. split; [lia|]. split.
    + intros s I. apply sock_back in I. destruct I as [I|[t [I [<- _]]]]; [lia|auto].
    + destruct D as [[s [I Ls]]|D]; [|right; now apply moment_mono].
      destruct (goes_or_comes _ e Iw) as [K|K]; [left; eauto|].
      destruct (existsb (fun p => Nat.eqb n (fst p) && s_listens (snd p))%bool (socks (step (run init l) e))) eqn:X.
      * apply existsb_exists in X. destruct X as [[m t] [It E]]. cbn in E. apply andb_true_iff in E. destruct E as [E1 E2].
        apply Nat.eqb_eq in E1. subst m. left. eauto.
      * right. apply moment_now; rewrite run_one.
        { exists c, (Greeting n). split; [exact G|]. intros o E. discriminate. }
        intros [m [t [It [At [Lt Kt]]]]]. assert (m = n).
        { apply (i_one _ Iw m t n s); auto. rewrite (A s I). exact At. }
        subst m. assert (existsb (fun p => Nat.eqb n (fst p) && s_listens (snd p))%bool (socks (step (run init l) e)) = true).
        { apply existsb_exists. exists (n, t). split; [exact It|]. cbn. now rewrite Nat.eqb_refl, Lt. }
        congruence.
  - intros [Al [st [S K]]]. split; [exact Al|]. exists st. split; [exact S|]. intros P. apply climbed_mono. auto.
  - intros [Al [L K]]. split; [exact Al|]. rewrite run_one. split; [lia|]. intros s I. apply sock_back in I.
    destruct I as [I|[t [I [<- [<- _]]]]]; [lia|]. apply landed_mono. auto.
  - intros [Al [L K]]. split; [exact Al|]. rewrite run_one. split; [lia|]. intros s I. apply sock_back in I.
    destruct I as [I|[t [I [<- [<- _]]]]]; [lia|]. apply landed_mono. auto.
  - destruct o as [|a| | | |]; auto.
    + apply moment_mono.
    + intros [Al [r K]]. split; [exact Al|]. exists r. now apply landed_mono.
    + destruct c; auto. intros [N M]. split; [exact N|]. now apply moment_mono.
    + intros [Al K]. split; [exact Al|]. intros Gk. destruct (K Gk) as [a [D M]]. exists a. split; [exact D|].
      intros P. apply moment_mono. auto.
    + intros [Al [h [st [S K]]]]. split; [exact Al|]. exists h, st. split; [exact S|]. intros P q Hq Nq. apply moment_mono. auto.
Qed.

Lemma ensure_server_iff a auto env : ensure_server a auto env = true <-> may_start a auto env.
Proof.
  unfold ensure_server, may_start. destruct auto as [[]|].
  - split; auto.
  - split; [discriminate|]. intros [H|[H _]]; discriminate.
  - destruct a; [split; [discriminate|intros [H|[_ [H _]]]; discriminate]|].
    destruct (env_addr env); [split; [discriminate|intros [H|[_ [_ H]]]; discriminate]|]. split; auto.
Qed.

Lemma good_begin_start l i a env c : (c = Create a env \/ exists auto, c = Ensure a auto env /\ may_start a auto env) ->
  good l i c (begin_start a env).
Proof.
  intros H. assert (Al : allowed c) by (destruct H as [->|[auto [-> M]]]; [exact I|exact M]).
  unfold begin_start. destruct a as [a|]; cbn [good]; split; try exact Al.
  - destruct H as [->|[auto [-> _]]]; reflexivity.
  - exists (env_server_start env). split; [destruct H as [->|[auto [-> _]]]; split; reflexivity|].
    intros _. split; [lia|]. intros q Q. lia.
Qed.

Lemma good_first l i c : good l i c (first_phase c).
Proof.
  destruct c as [a auto env|a env|a|h p env]; cbn [first_phase]; try exact I.
  - apply good_begin_start. now left.
  - unfold begin_publish. destruct p as [p|]; cbn [good]; (split; [exact I|]).
    + destruct h; reflexivity.
    + exists (env_pub_start env). split; [destruct h; split; reflexivity|]. intros _. split; [lia|]. intros q Q. lia.
Qed.

Lemma good_no_answer l i c : moment l i (fun w => ~ served w (aims c)) -> good l i c (no_answer c).
Proof.
  intros M. destruct c as [a auto env|a env|a|h p env]; cbn [no_answer]; try exact I.
  destruct (ensure_server a auto env) eqn:E.
  - apply good_begin_start. right. exists auto. split; [reflexivity|]. now apply ensure_server_iff.
  - cbn [good]. split; [|exact M]. intros H. apply ensure_server_iff in H. congruence.
Qed.

Lemma place_at a port : snd a <> 0 -> place a port = at_ resolve a.
Proof. intros H. unfold LocateModel.place, at_. destruct (N.eqb_spec (snd a) 0); [contradiction|reflexivity]. Qed.

Lemma good_move l i c e ph ph' : get i (agents (run init l)) = Some (mkAgent c ph) -> good l i c ph ->
  pmove (run init l) i c e ph ph' -> good (l ++ [e]) i c ph'.
Proof.
  intros G H P. pose proof (inv_run resolve refuses l) as Iw.
  assert (Pen : (forall o, ph <> Done o) -> pending (run init l) i) by (intros N; exists c, ph; auto).
  destruct P as [port n L|port L|port n s Gn K Ls|port a B|port h p M|port h p M E|port h p M E B|port n s m Gn L K|reset n A].
  - assert (W : next (step (run init l) (Go i port)) = next (run init l)).
    { cbn [LocateModel.step]. rewrite G. cbn [a_call a_phase go]. rewrite L. reflexivity. }
    assert (S : socks (step (run init l) (Go i port)) = socks (run init l)).
    { cbn [LocateModel.step]. rewrite G. cbn [a_call a_phase go]. rewrite L. reflexivity. }
    cbn [good]. rewrite run_one, W, S. apply (listener_Some refuses) in L. destruct L as [s [Is [As Ls]]].
    split; [apply Iw; now apply In_keys in Is|]. split; [|left; exists s; auto].
    intros t It. apply (In_get n s _ (i_keys _ Iw)) in Is. apply (In_get n t _ (i_keys _ Iw)) in It. unfold aims. congruence.
  - apply good_no_answer. apply moment_before; [apply Pen; discriminate|]. intros [m [t [It [At [Lt _]]]]].
    rewrite (proj1 (listener_None _ _) L m t It At) in Lt. discriminate.
  - cbn [good] in *. destruct H as [_ [A _]]. apply moment_before; [apply Pen; discriminate|].
    apply get_In in Gn. exists n, s. repeat split; auto.
  - cbn [good] in *. destruct H as [Al D]. split; [exact Al|]. intros _. exists a. split; [exact D|]. intros Pa.
    apply moment_before; [apply Pen; discriminate|]. intros [R F]. unfold port_ok in Pa. rewrite (place_at a port) in B by lia.
    assert (bindable (socks (run init l)) (at_ resolve a) true = true); [|congruence].
    apply bindable_true. split; [exact R|]. split; [exact Pa|]. intros n s Is As. split; [reflexivity|eauto].
  - cbn [good] in *. destruct H as [Al [st [S K]]]. split; [exact Al|]. exists h, st. split; [exact S|]. intros Q.
    destruct (K Q) as [K1 K2]. intros q Hq Nq.
    unfold MAX_PORT in M. apply moment_mono. apply K2; [lia|exact Nq].
  - cbn [good] in *. destruct H as [Al [st [S K]]]. split; [exact Al|]. exists st. split; [exact S|]. intros Q.
    destruct (K Q) as [K1 K2]. split; [lia|]. intros q Hq Nq. apply moment_mono. apply K2; [lia|exact Nq].
  - cbn [good] in *. destruct H as [Al [st [S K]]]. split; [exact Al|]. exists st. split; [exact S|]. intros Q.
    destruct (K Q) as [K1 K2]. split; [lia|]. intros q Hq Nq. destruct (N.eq_dec q p) as [->|NE].
    + apply moment_before; [apply Pen; discriminate|]. rewrite place_at in B by (cbn; lia).
      apply not_bindable_strict in B; [exact B|]. cbn. unfold MAX_PORT in M. lia.
    + apply moment_mono. apply K2; [lia|exact Nq].
  - cbn [good] in *. destruct H as [Al [Ln K2]]. split; [exact Al|].
    assert (S : step (run init l) (Go i port) = set_phase (run init l) i c (Stuck n)).
    { cbn [LocateModel.step]. rewrite G. cbn [a_call a_phase go]. unfold listen. rewrite Gn, L, K. reflexivity. }
    rewrite run_one, S. cbn [set_phase socks next]. split; [exact Ln|]. intros t It. apply landed_mono. auto.
  - cbn [good] in H. destruct H as [Ln [A2 D]]. assert (Mo : moment (l ++ [HangUp i reset]) i (fun w => ~ served w (aims c))).
    { destruct D as [[s [Is Ls]]|D]; [|now apply moment_mono]. apply moment_before; [apply Pen; discriminate|].
      intros [m [t [It [At [Lt Kt]]]]]. assert (m = n).
      { apply (i_one _ Iw m t n s); auto. now rewrite (A2 s Is). }
      subst m. apply (In_get n t _ (i_keys _ Iw)) in It. unfold alive in A. rewrite It, Kt in A. congruence. }
    unfold hung_up. destruct c as [a auto env|a env|a|h p env]; try exact I.
    destruct reset; [|exact I]. now apply good_no_answer.
Qed.

Lemma good_run l i c ph : get i (agents (run init l)) = Some (mkAgent c ph) -> good l i c ph.
Proof.
  revert i c ph. induction l as [|e l IH] using rev_ind; intros i c ph G; [discriminate|].
  pose proof (inv_run resolve refuses l) as Iw. pose proof G as G0. rewrite run_one in G.
  assert (Same : forall ph, get i (agents (run init l)) = Some (mkAgent c ph) ->
                 get i (agents (run init (l ++ [e]))) = Some (mkAgent c ph) -> good (l ++ [e]) i c ph).
  { intros ph' H1 H2. apply good_stays; [exact H2|]. now apply IH. }
  destruct (step_move resolve refuses (run init l) e) as [E|M].
  { rewrite E in G. now apply Same. }
  remember (step (run init l) e) as w' eqn:X.
  destruct M as [j d Gj|j k a Gj Gk|e j d p p' Gj P|j port d p a reuse Gj A B|j port d n s Gj Gn L|j port d n s m Gj Gn L Kc
                 |j n d p Gj|a reuse listens B|n s Gn Ow]; unfold set_phase in G, X; cbn [agents] in G.
  - rewrite get_put in G. destruct (dec i j) as [->|NE]; [|now apply Same].
    injection G as <- <-. apply good_first.
  - rewrite get_put in G. destruct (dec i k) as [->|NE].
    { injection G as <- <-. cbn [good]. split; [exact I|reflexivity]. }
    rewrite get_put in G. destruct (dec i j) as [->|NE2]; [|now apply Same].
    injection G as <- <-. exact I.
  - rewrite get_put in G. destruct (dec i j) as [->|NE]; [|now apply Same].
    injection G as <- <-. eapply good_move; eauto.
  - rewrite get_put in G. destruct (dec i j) as [->|NE]; [|now apply Same].
    injection G as <- <-. cbn [good]. pose proof (IH _ _ _ Gj) as H.
    rewrite run_one, <- X. cbn [next socks]. destruct A as [b|h q M E]; cbn [good] in H.
    + destruct H as [Al D]. split; [exact Al|]. split; [lia|]. intros s Is. apply in_app_iff in Is. destruct Is as [Is|[Is|[]]].
      * exfalso. apply In_keys in Is. apply (i_next _ Iw) in Is. lia.
      * injection Is as <-. left. exists b, port. auto.
    + destruct H as [Al [st [S K]]]. split; [exact Al|]. split; [lia|]. intros s Is. apply in_app_iff in Is. destruct Is as [Is|[Is|[]]].
      * exfalso. apply In_keys in Is. apply (i_next _ Iw) in Is. lia.
      * injection Is as <-. right. exists h, st. split; [exact S|]. split; [reflexivity|]. intros Q. destruct (K Q) as [K1 K2].
        exists q. cbn [s_addr]. rewrite place_at by (cbn; lia). split; [reflexivity|]. unfold MAX_PORT in M.
        split; [exact M|]. split; [exact E|]. apply climbed_mono. now split.
  - rewrite get_put in G. destruct (dec i j) as [->|NE]; [|now apply Same].
    injection G as <- <-. pose proof (IH _ _ _ Gj) as H. cbn [good] in *. destruct H as [Al [_ K]]. split; [exact Al|].
    exists (s_reuse s). apply landed_mono. apply K. now apply get_In.
  - rewrite get_put in G. destruct (dec i j) as [->|NE]; [|now apply Same].
    injection G as <- <-. pose proof (IH _ _ _ Gj) as H. cbn [good] in *. destruct H as [Al [_ K]]. split; [exact Al|]. congruence.
  - unfold stop in G, X. rewrite Gj in G, X. cbn [agents a_call a_phase] in G. rewrite get_put in G.
    destruct (dec i j) as [->|NE]; [|now apply Same]. injection G as <- <-. destruct p; try exact I.
    apply Same; [exact Gj|]. rewrite run_one, <- X. cbn [agents a_call a_phase]. now rewrite get_put_eq.
  - now apply Same.
  - now apply Same.
Qed.

(** ** A server that has started listens until it is stopped *)
Lemma started_listens l i a : ended (run init l) i (Started a) -> (forall n, ~ In (Stop i n) l) ->
  exists n s, In (n, s) (socks (run init l)) /\ s_addr s = a /\ s_listens s = true /\ s_owner s = Some i.
Proof.
  induction l as [|e l IH] using rev_ind; intros [c G] NS; [discriminate|]. rewrite run_one in *.
  pose proof (inv_run resolve refuses l) as Iw.
  assert (NS' : forall n, ~ In (Stop i n) l) by (intros n I; apply (NS n), in_app_iff; now left).
  assert (Old : get i (agents (run init l)) = Some (mkAgent c (Done (Started a))) ->
    exists n s, In (n, s) (socks (run init l)) /\ s_addr s = a /\ s_listens s = true /\ s_owner s = Some i).
  { intros H. apply IH; [now exists c|exact NS']. }
  destruct (step_move resolve refuses (run init l) e) as [E|M]; [rewrite E in *; auto|].
  remember (step (run init l) e) as w' eqn:X. clear X.
  destruct M as [j d Gj|j k b Gj Gk|e j d p p' Gj P|j port d p b reuse Gj A B|j port d n s Gj Gn L|j port d n s m Gj Gn L Kc
                 |j n d p Gj|b reuse listens B|n s Gn Ow]; unfold set_phase in *; cbn [agents socks] in *.
  - rewrite get_put in G. destruct (dec i j) as [->|NE]; [|now apply Old]. exfalso. injection G as <- G.
    pose proof (first_phase_holds d) as F. rewrite G in F. discriminate.
  - rewrite get_put in G. destruct (dec i k) as [->|NE]; [discriminate|]. rewrite get_put in G.
    destruct (dec i j) as [->|NE2]; [discriminate|]. now apply Old.
  - rewrite get_put in G. destruct (dec i j) as [->|NE]; [|now apply Old]. exfalso. injection G as <- ->.
    apply pmove_quiet in P. destruct P as [[_ P]|[n [_ P]]]; discriminate.
  - rewrite get_put in G. destruct (dec i j) as [->|NE]; [discriminate|]. destruct (Old G) as [n [s [I R]]].
    exists n, s. split; [apply in_app_iff; now left|exact R].
  - rewrite get_put in G. destruct (dec i j) as [->|NE].
    + injection G as <- <-. exists n. eexists. split; [apply In_put; [apply Iw|]; left; split; reflexivity|].
      cbn. repeat split. destruct (i_has _ Iw j d n (or_introl Gj)) as [s' [I' O']].
      apply (In_get n s' _ (i_keys _ Iw)) in I'. congruence.
    + destruct (Old G) as [m [t [I R]]]. exists m, t. split; [|exact R]. apply In_put; [apply Iw|]. right. split; [|exact I].
      intros ->. destruct (i_has _ Iw j d n (or_introl Gj)) as [s' [I' O']].
      apply (In_get n s' _ (i_keys _ Iw)) in I'. apply (In_get n t _ (i_keys _ Iw)) in I. destruct R as [_ [_ R]]. congruence.
  - rewrite get_put in G. destruct (dec i j) as [->|NE]; [discriminate|]. destruct (Old G) as [p [t [I R]]].
    exists p, t. split; [|exact R]. apply In_del. split; [|exact I].
    intros ->. destruct (i_has _ Iw j d n (or_introl Gj)) as [s' [I' O']].
    apply (In_get n s' _ (i_keys _ Iw)) in I'. apply (In_get n t _ (i_keys _ Iw)) in I. destruct R as [_ [_ R]]. congruence.
  - unfold stop in *. rewrite Gj in *. cbn [agents socks] in *. rewrite get_put in G. destruct (dec i j) as [->|NE].
    + exfalso. apply (NS n). apply in_app_iff. right. now left.
    + destruct (Old G) as [p' [t [I R]]]. exists p', t. split; [|exact R]. apply in_app_iff. left. apply filter_In.
      split; [exact I|]. cbn [snd]. apply negb_true_iff. destruct (owned j t) eqn:O; [|reflexivity]. apply owned_iff in O.
      destruct R as [_ [_ R]]. congruence.
  - destruct (Old G) as [n [s [I R]]]. exists n, s. split; [apply in_app_iff; now left|exact R].
  - destruct (Old G) as [m [t [I R]]]. exists m, t. split; [|exact R]. apply In_del. split; [|exact I]. intros ->.
    apply (In_get n t _ (i_keys _ Iw)) in I. destruct R as [_ [_ R]]. congruence.
Qed.

End Time.
