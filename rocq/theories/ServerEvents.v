(* Proofs about the settings event log of the graph server. *)

From Coq Require Import String List Arith Bool Lia.
From Verif Require Import Dict DagModel DagSpec DagProofs EventLogModel EventLogSpec EventLogProofs
  ServerModel ServerSpec ServerFrames ServerProofs.
Import ListNotations.

Definition lastv (a : addr) (evs : list sev) : option value :=
  option_map se_value (find (fun e => eqd (se_addr e) a) (rev evs)).

Lemma lastv_snoc a evs e : lastv a (evs ++ [e]) = if eqd (se_addr e) a then Some (se_value e) else lastv a evs.
Proof. unfold lastv. rewrite rev_app_distr. cbn. destruct (eqd (se_addr e) a); reflexivity. Qed.

Lemma lastv_none a evs es : (forall e, In e es -> se_addr e <> a) -> lastv a (evs ++ es) = lastv a evs.
Proof.
  induction es as [|e es IH] using rev_ind; intros H; [now rewrite app_nil_r|].
  rewrite app_assoc, lastv_snoc. rewrite eqd_neq; [|apply H, in_app_iff; right; now left].
  apply IH. intros x K. apply H, in_app_iff; now left.
Qed.

Lemma lastv_all a evs es v : (forall e, In e es -> se_addr e = a -> se_value e = v) ->
  (exists e, In e es /\ se_addr e = a) -> lastv a (evs ++ es) = Some v.
Proof.
  induction es as [|e es IH] using rev_ind; intros H [x [K E]]; [destruct K|].
  rewrite app_assoc, lastv_snoc. destruct (eqd (se_addr e) a) eqn:Q.
  - apply (proj1 (eqd_true _ _)) in Q. f_equal. apply H; [apply in_app_iff; right; now left|assumption].
  - apply (proj1 (eqd_false _ _)) in Q. apply IH.
    + intros y Y. apply H, in_app_iff; now left.
    + apply in_app_iff in K as [K|[<-|[]]]; [eauto|congruence].
Qed.

(** The log after appending all of [evs]. *)
Definition logged (sl : nat) (evs : list sev) : log sev := after_ops sl (map (@Append sev) evs).

Lemma logged_app sl evs es : append_all es (logged sl evs) = logged sl (evs ++ es).
Proof.
  unfold logged, after_ops, log_run. rewrite map_app, fold_left_app.
  generalize (fold_left log_step (map (@Append sev) evs) (new_log sl)).
  induction es as [|e es IH]; intros L; cbn; [reflexivity|]. now rewrite <- IH.
Qed.

Lemma logged_snoc sl evs e : append e (logged sl evs) = logged sl (evs ++ [e]).
Proof. exact (logged_app sl evs [e]). Qed.

Record VInv (sl : nat) (s : server) (evs : list sev) : Prop := {
  vi_log : s_slog s = logged sl evs;
  vi_last : forall a st, get a (s_set s) = Some st -> lastv a evs = Some (st_value st)
}.

Lemma fresh_prefix h e : registers_before_reports (h ++ [e]) -> registers_before_reports h.
Proof.
  intros F b sid md a x p v E. apply (F b sid md (a ++ [e]) x p v). rewrite E, <- app_assoc. reflexivity.
Qed.

Lemma VInv_same sl s s' evs : VInv sl s evs -> s_slog s' = s_slog s ->
  (forall a st', get a (s_set s') = Some st' -> exists st, get a (s_set s) = Some st /\ st_value st = st_value st') ->
  VInv sl s' evs.
Proof.
  intros [A B] E G. constructor; [now rewrite E|]. intros a st' K. apply G in K as [st [K <-]]. auto.
Qed.

Lemma rss_value sid b o st' : rss_entry sid b o = Some st' -> exists st, o = Some st /\ st_value st = st_value st' /\
  (st_proc st' = st_proc st).
Proof.
  destruct o as [st|]; cbn; [|discriminate]. destruct (_ && _).
  - unfold without_session. destruct (st_proc st) eqn:P; [|discriminate]. intros [= <-]. eauto.
  - intros [= <-]. eauto.
Qed.

Lemma VInv_effect sl s h l s' r evs : CInv s -> SInv s h -> NoDup (keys (s_pend s)) ->
  (forall sid md, l = LSessRegister sid md -> keyed md) ->
  registers_before_reports (h ++ [(l, r)]) ->
  VInv sl s evs -> effect s l s' r -> exists evs', VInv sl s' evs'.
Proof.
  intros I SI NP Ky Fr V H. destruct H as
    [l c s' Hc W E | l r W | id c s' G Hc E | f t s' d' r tl A N E | f t s' d' ch tl A E
    | sid f t s' d' r tl es md Si A N E | sid f t s' d' ch tl es md Si A E
    | sid md es md0 s' Si C E | sid es md d' ts x tl s' Si C G N E | sid es md d' ts x tl s' Si C G N E
    | pid us us0 s' tl Pi C E | pid added removed us0 s' tl Pi C E | pid a v us s' msid Pi Ia M E
    | pid req body us Pi | pid us Pi | u ok | req G | req G | req r G ];
    try (exists evs; subst s'; apply (VInv_same sl s); [exact V|reflexivity|sproj; eauto]; fail);
    try (exists evs; apply (VInv_same sl s); [exact V|reflexivity|sproj; eauto]; fail).
  - (* register *)
    pose proof (Ky sid md eq_refl) as Kmd.
    destruct (remove_settings_for_session_eq sid s) as [x [Ex [Gx Nx]]]. rewrite Ex in E.
    rewrite (set_metadata_eq sid (Some md) _ es md0) in E by exact Si.
    destruct (apply_metadata_eq sid md (set_clients (put sid (CSess es (Some md))
                (s_clients (set_set x (set_owned (del sid (s_owned s)) s))))
                (set_set x (set_owned (del sid (s_owned s)) s))) (proj1 Kmd) (proj2 Kmd))
      as [y [os [Ey [Gy [Ny Os]]]]].
    rewrite Ey in E. sproj_in E. subst s'.
    exists (evs ++ map (fun p => initial_event sid (snd p)) md). constructor; sproj.
    + rewrite (vi_log _ _ _ V). apply logged_app.
    + intros a st K. rewrite Gy in K. sproj_in K. destruct (get a md) as [c|] eqn:Gm.
      * injection K as <-.
        assert (J : In a (map fst md)) by (eapply get_Some_key; eauto).
        assert (Sv : st_value (with_session sid c (get a x)) = cm_init c).
        { unfold with_session. destruct (get a x) as [st|] eqn:Ga; [|reflexivity].
          destruct (st_proc st) as [p|] eqn:P; [|reflexivity]. exfalso.
          rewrite Gx in Ga. apply rss_value in Ga as [st0 [G0 [V0 P0]]].
          apply (Fr h sid md [] a p (st_value st0) eq_refl J).
          apply (si_rep _ _ _ _ SI). exists (st_sess st0). rewrite G0. f_equal.
          destruct st0; cbn in *. congruence. }
        rewrite Sv. apply lastv_all.
        -- intros e Ie Ea. apply in_map_iff in Ie as [[b c'] [<- Ic]]. cbn in *.
           assert (b = a) by (rewrite <- Ea; symmetry; eapply (proj2 Kmd); eauto). subst b.
           apply In_get in Ic; [|apply Kmd]. congruence.
        -- exists (initial_event sid c). split.
           ++ apply in_map_iff. exists (a, c). split; [reflexivity|now apply get_In].
           ++ cbn. apply (proj2 Kmd). now apply get_In.
      * rewrite lastv_none.
        -- rewrite Gx in K. apply rss_value in K as [st0 [G0 [V0 _]]].
           rewrite <- V0. now apply (vi_last _ _ _ V).
        -- intros e Ie Ea. apply in_map_iff in Ie as [[b c'] [<- Ic]]. cbn in Ea.
           rewrite (proj2 Kmd b c' Ic) in Ea. subst b. apply get_None in Gm. apply Gm.
           apply in_map_iff. now exists (a, c').
  - exists evs. subst s'. apply (VInv_same sl s); [exact V|reflexivity|]. sproj.
    intros a st K. rewrite G in K. apply rss_value in K as [st0 [G0 [V0 _]]]. eauto.
  - exists evs. subst s'. apply (VInv_same sl s); [exact V|reflexivity|]. sproj.
    intros a st K. rewrite G in K. apply rss_value in K as [st0 [G0 [V0 _]]]. eauto.
  - subst s'. eexists. constructor; sproj.
    + rewrite (vi_log _ _ _ V). apply logged_snoc.
    + intros b st K. rewrite get_put in K. rewrite lastv_snoc. cbn [se_addr se_value].
      destruct (dec b a) as [->|Nb].
      * injection K as <-. now rewrite eqd_refl.
      * rewrite eqd_neq by congruence. now apply (vi_last _ _ _ V).
  - exists evs. pose proof (sp_route_response pid req body s) as K. unfold settings_part in K.
    injection K as K1 K2 K3 K4. apply (VInv_same sl s); [exact V|assumption|]. rewrite K2. eauto.
  - (* process gone *)
    destruct (process_gone_eq pid s (si_nodup _ _ _ _ SI) NP)
      as [x [y [z [E [_ [_ [_ [_ [_ [Gz Nz]]]]]]]]]].
    rewrite E. eexists. constructor; sproj.
    + rewrite (vi_log _ _ _ V). apply logged_app.
    + assert (Ev : forall e a, In e (flat_map (rsp_event s) (of_process pid s)) -> se_addr e = a ->
        exists st st', get a (s_set s) = Some st /\ st_proc st = Some pid /\
          without_process s a st = Some st' /\ se_value e = st_value st').
      { intros e a Ie Ea. apply in_flat_map in Ie as [b [Ib Ie]].
        apply (of_process_In pid s b (si_nodup _ _ _ _ SI)) in Ib as [st [Gb P]].
        unfold rsp_event in Ie. rewrite Gb in Ie.
        destruct (without_process s b st) as [st'|] eqn:Wp; [|destruct Ie].
        destruct Ie as [<-|[]]. cbn in Ea; subst b. exists st, st'. auto. }
      intros a st K. rewrite Gz in K. destruct (get a (s_set s)) as [st0|] eqn:Ga; [|discriminate].
      destruct (eqd (st_proc st0) (Some pid)) eqn:P.
      * apply (proj1 (eqd_true _ _)) in P. apply lastv_all.
        -- intros e Ie Ea. destruct (Ev e a Ie Ea) as [st1 [st' [G1 [_ [W1 V1]]]]]. congruence.
        -- exists (mkSev SETTINGS_UPDATED a (st_value st) (st_sess st) None). split; [|reflexivity].
           apply in_flat_map. exists a. split; [apply of_process_In; [apply SI|eauto]|].
           unfold rsp_event. rewrite Ga, K. now left.
      * apply (proj1 (eqd_false _ _)) in P. injection K as ->. rewrite lastv_none.
        -- now apply (vi_last _ _ _ V).
        -- intros e Ie Ea. destruct (Ev e a Ie Ea) as [st1 [st' [G1 [P1 _]]]]. congruence.
  - exists evs. pose proof (sp_route_request u ok s) as K. unfold settings_part in K.
    injection K as K1 K2 K3 K4. apply (VInv_same sl s); [exact V|assumption|]. rewrite K2. eauto.
Qed.

Lemma VInv_run sl tl s h : run sl tl s h -> well_keyed h -> registers_before_reports h ->
  exists evs, VInv sl s evs.
Proof.
  induction 1 as [|s h l s' r w R IH E]; intros Wk Fr.
  - exists []. constructor; [reflexivity|discriminate].
  - assert (Wk0 : well_keyed h).
    { intros sid md x K. apply (Wk sid md x). apply in_app_iff; now left. }
    destruct (IH Wk0 (fresh_prefix _ _ Fr)) as [evs V].
    destruct (RInv_run _ _ _ _ R) as [RI NS]. pose proof (CInv_run _ _ _ _ R) as I.
    eapply (VInv_effect sl s h l s' r evs); eauto.
    + now apply (SInv_run sl tl).
    + apply RI.
    + intros sid md ->. apply (Wk sid md r). apply in_app_iff; right; now left.
    + eapply step_effect; eauto.
Qed.

Lemma find_skipn {B} (f : B -> bool) l n x : find f (rev (skipn n l)) = Some x -> find f (rev l) = Some x.
Proof.
  rewrite <- (firstn_skipn n l) at 2. rewrite rev_app_distr.
  induction (rev (skipn n l)) as [|y m IH]; cbn; [discriminate|]. destruct (f y); auto.
Qed.

Lemma find_numbered a evs :
  last_event_value a (numbered evs) = lastv a evs.
Proof.
  unfold last_event_value, lastv. induction evs as [|e evs IH] using rev_ind; [reflexivity|].
  rewrite numbered_snoc, !rev_app_distr. cbn. unfold about at 1. cbn.
  destruct (eqd (se_addr e) a); [reflexivity|exact IH].
Qed.

Lemma events_explain sl tl s h : run sl tl s h -> well_keyed h -> registers_before_reports h ->
  forall a v, settings_snapshot s a = Some v ->
    (forall w, last_event_value a (l_events (s_slog s)) = Some w -> w = v) /\
    (l_seq (s_slog s) <= sl -> last_event_value a (l_events (s_slog s)) = Some v).
Proof.
  intros R Wk Fr a v Sn. destruct (VInv_run sl tl s h R Wk Fr) as [evs [L V]].
  unfold settings_snapshot in Sn. destruct (get a (s_set s)) as [st|] eqn:G; [|discriminate].
  injection Sn as <-. apply V in G. rewrite L. unfold logged.
  destruct (log_contents sl (map (@Append sev) evs)) as [C1 C2].
  assert (Ap : appended (map (@Append sev) evs) = evs).
  { clear. unfold appended. induction evs as [|e l IH]; cbn; [reflexivity|]. now rewrite IH. }
  rewrite Ap in *.
  assert (G' : last_event_value a (numbered evs) = Some (st_value st)) by now rewrite find_numbered.
  destruct C2 as [C2 C3]. rewrite C2, C3. split.
  - intros w K. unfold last_event_value in *.
    destruct (find (about a) (rev (lastn sl (numbered evs)))) as [e|] eqn:F; [|discriminate].
    unfold lastn in F. apply find_skipn in F. rewrite F in G'. cbn in *. congruence.
  - intros Le. rewrite lastn_short; [assumption|]. now rewrite numbered_length.
Qed.
