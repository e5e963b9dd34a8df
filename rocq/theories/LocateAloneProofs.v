(* Proofs about LocateModel: a call that nothing interferes with, and a server started again. *)

From Coq Require Import String List Arith NArith Bool Lia.
From Verif Require Import Dict LocateModel LocateSpec LocateProofs LocateTimeProofs.
Import ListNotations.
Open Scope N_scope.

Section Alone.
Variable resolve : string -> string.
Variable refuses : addr -> bool.

Notation step := (step resolve refuses).
Notation run := (run resolve refuses).
Notation bindable := (bindable refuses).
Notation place := (place resolve).

Lemma run_cons w e l : run w (e :: l) = run (step w e) l.
Proof. reflexivity. Qed.

Lemma step_go w i c ph port : get i (agents w) = Some (mkAgent c ph) ->
  step w (Go i port) = go resolve refuses w i c ph port.
Proof. intros G. cbn [LocateModel.step]. now rewrite G. Qed.

Lemma ended_stays w l i o : ended w i o -> ended (run w l) i o.
Proof.
  revert w. induction l as [|e l IH]; intros w H; [exact H|]. rewrite run_cons. apply IH.
  destruct H as [c G]. destruct (step_call resolve refuses w e i c _ G) as [ph' [G' D]]. exists c. now rewrite G', (D o eq_refl).
Qed.

Lemma get_phase w i c ph : get i (agents (set_phase w i c ph)) = Some (mkAgent c ph).
Proof. cbn. apply get_put_eq. Qed.

(** Nobody else at the address: bind, then listen. *)
Lemma bind_listen w i c a reuse port ports : inv w ->
  get i (agents w) <> None -> bindable (socks w) a reuse = true ->
  ended (run (mkWorld (socks w ++ [(next w, mkSock a reuse false (kind_of c) (Some i))])
                (put i (mkAgent c (Starting (next w))) (agents w)) (S (next w))) (map (Go i) (port :: ports))) i (Started a).
Proof.
  intros Iw _ B. cbn [map]. rewrite run_cons. apply ended_stays.
  rewrite (step_go _ i c (Starting (next w))) by (cbn; apply get_put_eq). cbn [go]. unfold listen. cbn [socks].
  assert (G : get (next w) (socks w ++ [(next w, mkSock a reuse false (kind_of c) (Some i))]) = Some (mkSock a reuse false (kind_of c) (Some i))).
  { apply In_get; [|apply in_app_iff; right; now left]. rewrite keys_app. apply NoDup_append; [apply Iw|repeat constructor; tauto|].
    intros x Ix [<-|[]]. apply (i_next _ Iw) in Ix. cbn in Ix. lia. }
  rewrite G. cbn [s_addr]. assert (L : listener (socks w ++ [(next w, mkSock a reuse false (kind_of c) (Some i))]) a = None).
  { apply listener_None. intros n s I E. apply in_app_iff in I. destruct I as [I|[I|[]]].
    - apply (proj1 (bindable_true refuses _ _ _)) in B. destruct B as [_ [_ B]]. now destruct (B n s I E) as [_ [_ ?]].
    - now injection I as <- <-. }
  rewrite L. exists c. cbn [agents]. now rewrite get_put_eq.
Qed.

Lemma taken_ext w w' a : socks w = socks w' -> taken refuses w a -> taken refuses w' a.
Proof. unfold taken. now intros ->. Qed.

Lemma inv_same w i c ph ph' : inv w -> get i (agents w) = Some (mkAgent c ph) -> holds ph = false -> holds ph' = false ->
  inv (set_phase w i c ph').
Proof. intros Iw G H H'. apply inv_quiet; auto. intros c' p E. rewrite G in E. now injection E as <- <-. Qed.

(** The search, alone. *)
Lemma search_alone i c h : forall k p w ports, (N.to_nat (65536 - p) <= k)%nat -> 0 < p ->
  inv w -> get i (agents w) = Some (mkAgent c (Searching h p)) -> (k + 2 <= length ports)%nat ->
  (exists q, lowest_free refuses w (resolve h) p q /\ ended (run w (map (Go i) ports)) i (Started (resolve h, q))) \/
  (none_free refuses w (resolve h) p /\ ended (run w (map (Go i) ports)) i NoFreePorts).
Proof.
  induction k as [|k IH]; intros p w ports Hk Hp Iw G Hl.
  - destruct ports as [|port ports]; [cbn in Hl; lia|]. cbn [map]. rewrite run_cons, (step_go _ i c (Searching h p) port G). cbn [go].
    assert (M : MAX_PORT <? p = true) by (apply N.ltb_lt; unfold MAX_PORT; lia). rewrite M. right. split.
    + intros q Q. lia.
    + apply ended_stays. exists c. apply get_phase.
  - destruct ports as [|port ports]; [cbn in Hl; lia|]. cbn [map]. rewrite run_cons, (step_go _ i c (Searching h p) port G). cbn [go].
    cbn [length] in Hl. destruct (MAX_PORT <? p) eqn:M.
    { apply N.ltb_lt in M. unfold MAX_PORT in M. right. split; [intros q Q; lia|]. apply ended_stays. exists c. apply get_phase. }
    apply N.ltb_ge in M. unfold MAX_PORT in M.
    assert (Next : (p = 25978 \/ taken refuses w (resolve h, p)) ->
      (exists q, lowest_free refuses w (resolve h) p q /\
         ended (run (set_phase w i c (Searching h (p + 1))) (map (Go i) ports)) i (Started (resolve h, q))) \/
      (none_free refuses w (resolve h) p /\ ended (run (set_phase w i c (Searching h (p + 1))) (map (Go i) ports)) i NoFreePorts)).
    { intros T. destruct (IH (p + 1) (set_phase w i c (Searching h (p + 1))) ports) as [[q [[L1 [L2 [L3 L4]]] E]]|[L E]];
        [lia|lia|eapply inv_same; eauto|apply get_phase|lia| |].
      - left. exists q. split; [|exact E]. split; [lia|]. split; [exact L2|]. split; [exact L3|]. intros r R Nr.
        destruct (N.eq_dec r p) as [->|NE]; [destruct T as [->|T]; [contradiction|exact T]|]. apply L4; [lia|exact Nr].
      - right. split; [|exact E]. intros r R Nr. destruct (N.eq_dec r p) as [->|NE]; [destruct T as [->|T]; [contradiction|exact T]|].
        apply L; [lia|exact Nr]. }
    destruct (mem p RESERVED_PORTS) eqn:R.
    { apply Next. left. exact (proj1 (reserved refuses p) R). }
    assert (NP : p <> 25978) by (intros P; rewrite (proj2 (reserved refuses p) P) in R; discriminate R). unfold bind.
    rewrite (place_at resolve (h, p) port) by (cbn; lia). unfold at_. cbn [fst snd].
    destruct (bindable (socks w) (resolve h, p) false) eqn:B.
    + left. exists p. split.
      * split; [lia|]. split; [exact NP|]. split; [|intros r Hr; lia]. apply (proj1 (bindable_true refuses _ _ _)) in B.
        destruct B as [B1 [_ B2]]. intros [T|[n [s [I E]]]]; [congruence|]. destruct (B2 n s I E). discriminate.
      * destruct ports as [|port' ports]; [cbn in Hl; lia|]. apply bind_listen; auto. congruence.
    + apply Next. right. apply not_bindable_strict in B; [exact B|cbn; lia].
Qed.

Lemma create_alone w i c a port ports : inv w -> get i (agents w) = Some (mkAgent c (Binding a)) -> port_ok (snd a) ->
  (1 <= length ports)%nat ->
  (free_for_reuse refuses w (at_ resolve a) -> ended (run w (map (Go i) (port :: ports))) i (Started (at_ resolve a))) /\
  (~ free_for_reuse refuses w (at_ resolve a) -> ended (run w (map (Go i) (port :: ports))) i Unavailable).
Proof.
  intros Iw G P L. unfold port_ok in P. cbn [map]. rewrite run_cons, (step_go _ i c (Binding a) port G). cbn [go]. unfold bind.
  rewrite (place_at resolve a port) by lia.
  assert (EQ : bindable (socks w) (at_ resolve a) true = true <-> free_for_reuse refuses w (at_ resolve a)).
  { rewrite (bindable_true refuses). unfold free_for_reuse. cbn [at_ snd]. split.
    - intros [R [_ F]]. split; [exact R|]. intros n s I E. destruct (F n s I E) as [_ ?]. assumption.
    - intros [R F]. split; [exact R|]. split; [exact P|]. intros n s I E. destruct (F n s I E). auto. }
  destruct (bindable (socks w) (at_ resolve a) true) eqn:B.
  - split; [|intros N; exfalso; apply N; now apply EQ]. intros _. destruct ports as [|q ports]; [cbn in L; lia|].
    apply bind_listen; auto. congruence.
  - split; [intros F; apply EQ in F; discriminate|]. intros _. apply ended_stays. exists c. apply get_phase.
Qed.

Lemma ensure_alone w i given auto env ports : inv w -> get i (agents w) = None ->
  resolve "127.0.0.1"%string = "127.0.0.1"%string ->
  0 < env_server_start env -> (forall a, given = Some a -> port_ok (snd a)) ->
  ~ squatted w (at_ resolve (meant given env)) ->
  (N.to_nat 65540 <= length ports)%nat ->
  exists o, verdict resolve refuses w given auto env o /\
            ended (run w (Call i (Ensure given auto env) :: map (Go i) ports)) i o.
Proof.
  intros Iw G R0 Hs Hg Sq Hl. rewrite run_cons. cbn [LocateModel.step]. rewrite G. cbn [first_phase].
  set (c := Ensure given auto env). remember (N.to_nat 65536) as K eqn:HK.
  assert (HK' : (K + 4 <= length ports)%nat) by (subst K; lia). clear Hl.
  set (w1 := set_phase w i c Connecting).
  assert (I1 : inv w1). { apply inv_quiet; [exact Iw| |reflexivity]. intros c' p E. congruence. }
  destruct ports as [|port ports]; [cbn in HK'; lia|]. cbn [length] in HK'. cbn [map]. rewrite run_cons.
  rewrite (step_go w1 i c Connecting port) by apply get_phase. cbn [go].
  assert (T : place (target c) 0 = at_ resolve (meant given env)).
  { unfold c, target, LocateModel.address, default_address, meant, LocateModel.place, at_. 
    destruct given as [a|]; [|destruct (env_addr env) as [a|]; [|reflexivity]]; cbn;
      destruct (N.eqb_spec (snd a) 0) as [->|]; reflexivity. }
  rewrite T. change (socks w1) with (socks w).
  destruct (listener (socks w) (at_ resolve (meant given env))) as [n|] eqn:L.
  - apply (listener_Some refuses) in L. destruct L as [s [Is [As Ls]]]. exists Found.
    assert (K0 : s_kind s = Graph). { destruct (s_kind s) eqn:X; [reflexivity| |]; exfalso; apply Sq; exists n, s; repeat split; auto; congruence. }
    split; [constructor; exists n, s; auto|]. destruct ports as [|p2 ports]; [cbn in HK'; lia|]. cbn [map].
    rewrite run_cons, (step_go _ i c (Greeting n) p2) by apply get_phase. cbn [go set_phase socks].
    change (socks w1) with (socks w). rewrite (In_get n s _ (i_keys _ Iw) Is), K0, Ls. apply ended_stays. exists c. apply get_phase.
  - assert (NS : ~ served w (at_ resolve (meant given env))).
    { intros [n [s [Is [As [Ls _]]]]]. rewrite (proj1 (listener_None _ _) L n s Is As) in Ls. discriminate. }
    cbn [no_answer c]. destruct (ensure_server given auto env) eqn:ES.
    + apply ensure_server_iff in ES. unfold begin_start. destruct given as [a|].
      * specialize (Hg a eq_refl). set (w2 := set_phase w1 i c (Binding a)).
        assert (I2 : inv w2) by (eapply inv_same; [exact I1|apply get_phase|reflexivity|reflexivity]).
        destruct ports as [|p2 ports]; [cbn in HK'; lia|]. cbn [length] in HK'.
        destruct (create_alone w2 i c a p2 ports I2 (get_phase _ _ _ _) Hg ltac:(lia)) as [C1 C2].
        destruct (bindable (socks w) (at_ resolve a) true) eqn:B.
        -- exists (Started (at_ resolve a)). apply (proj1 (bindable_true refuses _ _ _)) in B. destruct B as [B1 [_ B2]].
           assert (F : free_for_reuse refuses w (at_ resolve a)).
           { split; [exact B1|]. intros n s I E. destruct (B2 n s I E) as [_ ?]. assumption. }
           split; [now eapply v_started|]. now apply C1.
        -- exists Unavailable. assert (F : ~ free_for_reuse refuses w (at_ resolve a)).
           { intros [F1 F2]. assert (bindable (socks w) (at_ resolve a) true = true); [|congruence]. apply (bindable_true refuses).
             split; [exact F1|]. split; [exact Hg|]. intros n s I E. destruct (F2 n s I E). auto. }
           split; [now eapply v_unavailable|]. now apply C2.
      * set (w2 := set_phase w1 i c (Searching DEFAULT_HOST (env_server_start env))).
        assert (I2 : inv w2) by (eapply inv_same; [exact I1|apply get_phase|reflexivity|reflexivity]).
        destruct (search_alone i c DEFAULT_HOST K (env_server_start env) w2 ports) as [[q [LF E]]|[NF E]];
          [subst K; lia|exact Hs|exact I2|apply get_phase|lia| |].
        -- unfold DEFAULT_HOST in LF, E. rewrite R0 in LF, E. exists (Started ("127.0.0.1"%string, q)).
           split; [now eapply v_anywhere|exact E].
        -- unfold DEFAULT_HOST in NF, E. rewrite R0 in NF. exists NoFreePorts. split; [now eapply v_nowhere|exact E].
    + exists Refused. split; [apply v_refused; [exact NS|]|].
      * intros M. apply ensure_server_iff in M. congruence.
      * apply ended_stays. exists c. apply get_phase.
Qed.

(** ** Starting again *)

Lemma sock_allowed l n s : In (n, s) (socks (run init l)) -> refuses (s_addr s) = false.
Proof.
  revert n s. induction l as [|e l IH] using rev_ind; intros n s I; [destruct I|]. rewrite run_one in I.
  destruct (step_move resolve refuses (run init l) e) as [E|M]; [rewrite E in I; eauto|].
  pose proof (sock_back resolve refuses (run init l) e n s I) as SB.
  remember (step (run init l) e) as w' eqn:X. destruct SB as [SB|[t [It [<- _]]]]; [|eauto].
  pose proof (inv_run resolve refuses l) as Iw.
  destruct M as [j d Gj|j k a Gj Gk|e j d p p' Gj P|j port d p a reuse Gj A B|j port d m u Gj Gn L|j port d m u v Gj Gn L Kc
                 |j m d p Gj|a reuse listens B|m u Gn Ow]; unfold set_phase in I; cbn [socks] in I; try (now eapply IH; eauto).
  - apply in_app_iff in I. destruct I as [I|[I|[]]]; [eauto|]. injection I as <- <-. now apply (proj1 (bindable_true refuses _ _ _)) in B.
  - apply In_put in I; [|apply Iw]. destruct I as [[-> ->]|[_ I]]; [|eauto]. cbn. apply get_In in Gn. eauto.
  - apply In_del in I. destruct I. eauto.
  - apply (stop_socks refuses _ _ _ _ _ _ _ Gj) in I. destruct I as [[I _]|[_ [_ [_ [_ [q [u [Iu [_ [-> _]]]]]]]]]]; eauto.
  - apply in_app_iff in I. destruct I as [I|[I|[]]]; [eauto|]. injection I as <- <-. now apply (proj1 (bindable_true refuses _ _ _)) in B.
  - apply In_del in I. destruct I. eauto.
Qed.

(** The sockets of a call with a given address have the option set. *)
Lemma owned_reuse l i c a n s : called (run init l) i c -> demands c a -> In (n, s) (socks (run init l)) -> s_owner s = Some i ->
  s_reuse s = true.
Proof.
  revert n s. induction l as [|e l IH] using rev_ind; intros n s Ca D I O; [destruct Ca; discriminate|].
  pose proof (inv_run resolve refuses (l ++ [e])) as Iw'. destruct (i_owner _ Iw' n s i I O) as [c' [ph [G Ft]]].
  destruct Ca as [ph2 G2]. rewrite G2 in G. injection G as <- <-.
  destruct Ft as [_ [[E _]|[[E _]|[E Li]]]].
  - subst ph2. apply good_run in G2. cbn [good] in G2. destruct G2 as [_ [_ K]]. destruct (K s I) as [[b [port [_ [_ R]]]]|[h [st [S _]]]]; [exact R|].
    exfalso. destruct c as [[?|] ? ?|[?|] ?|?|[?|] [?|] ?]; cbn in D, S; tauto.
  - subst ph2. apply good_run in G2. cbn [good] in G2. destruct G2 as [_ [_ K]]. destruct (K s I) as [[b [port [_ [_ R]]]]|[h [st [S _]]]]; [exact R|].
    exfalso. destruct c as [[?|] ? ?|[?|] ?|?|[?|] [?|] ?]; cbn in D, S; tauto.
  - rewrite run_one in I. pose proof (sock_back resolve refuses _ e n s I) as [SB|[t [It [_ [<- [_ [Ot _]]]]]]].
    + exfalso. destruct (step_move resolve refuses (run init l) e) as [E2|M].
      { rewrite E2 in I. apply In_keys in I. apply (i_next _ (inv_run resolve refuses l)) in I. lia. }
      pose proof (inv_run resolve refuses l) as Iw.
      remember (step (run init l) e) as w' eqn:X. clear X G2.
      destruct M as [j d Gj|j k b Gj Gk|e j d p p' Gj P|j port d p b reuse Gj A B|j port d m u Gj Gn L|j port d m u v Gj Gn L Kc
                 |j m d p Gj|b reuse listens B|m u Gn Ow]; unfold set_phase in I; cbn [socks] in I;
        try (apply In_keys in I; apply (i_next _ Iw) in I; lia).
      * apply in_app_iff in I. destruct I as [I|[I|[]]]; [apply In_keys in I; apply (i_next _ Iw) in I; lia|].
        injection I as <- <-. discriminate.
      * apply In_put in I; [|apply Iw]. destruct I as [[-> _]|[_ I]]; [apply get_In in Gn; apply In_keys in Gn; apply (i_next _ Iw) in Gn; lia|].
        apply In_keys in I; apply (i_next _ Iw) in I; lia.
      * apply In_del in I. destruct I as [_ I]. apply In_keys in I; apply (i_next _ Iw) in I; lia.
      * apply (stop_socks refuses _ _ _ _ _ _ _ Gj) in I. destruct I as [[I _]|[_ [C _]]]; [|congruence].
        apply In_keys in I; apply (i_next _ Iw) in I; lia.
      * apply in_app_iff in I. destruct I as [I|[I|[]]]; [apply In_keys in I; apply (i_next _ Iw) in I; lia|].
        injection I as <- <-. discriminate.
      * apply In_del in I. destruct I as [_ I]. apply In_keys in I; apply (i_next _ Iw) in I; lia.
    + rewrite O in Ot. apply (IH n t); auto. destruct (i_owner _ (inv_run resolve refuses l) n t i It Ot) as [c' [p' [G' _]]].
      destruct (step_call resolve refuses _ e _ _ _ G') as [p2 [G3 _]]. rewrite run_one in G2. rewrite G3 in G2. injection G2 as -> _.
      now exists p'.
Qed.

Lemma stop_frees l i c a k : called (run init l) i c -> demands c a -> refuses (at_ resolve a) = false ->
  (forall n s, In (n, s) (socks (run init l)) -> s_addr s = at_ resolve a -> s_owner s = Some i) ->
  free_for_reuse refuses (run init (l ++ [Stop i k])) (at_ resolve a).
Proof.
  intros Ca D R Own. split; [exact R|]. intros n s I E. rewrite run_one in I. cbn [LocateModel.step] in I.
  pose proof Ca as [ph G]. apply (stop_socks refuses _ _ _ _ _ _ _ G) in I.
  destruct I as [[I O]|[_ [_ [_ [Li [m [t [It [Ot [At Rt]]]]]]]]]].
  - exfalso. apply (Own n s I) in E. apply owned_iff in E. congruence.
  - split; [|exact Li]. rewrite Rt. eapply owned_reuse; eauto.
Qed.

End Alone.
