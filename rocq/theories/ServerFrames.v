(* What each server command changes, field by field.  Used by ServerProofs.v. *)

From Coq Require Import String List Arith Bool Lia.
From Verif Require Import Dict DagModel DagSpec DagProofs EventLogModel EventLogSpec ServerModel.
Import ListNotations.

Lemma put_put {K V} `{Dec K} (k : K) (v w : V) d : put k v (put k w d) = put k v d.
Proof.
  induction d as [|[k2 v2] d IH]; cbn.
  - destruct (dec k k); congruence.
  - destruct (dec k k2); cbn; [destruct (dec k k); congruence|].
    destruct (dec k k2); [congruence|]. now rewrite IH.
Qed.

Ltac sproj := cbn [set_next set_dag set_clients set_set set_slog set_owned set_tlog set_pend
                   set_fut set_answers set_sent
                   s_next s_dag s_clients s_set s_slog s_owned s_tlog s_pend s_fut s_answers s_sent].
Ltac sproj_in H := cbn [set_next set_dag set_clients set_set set_slog set_owned set_tlog set_pend
                   set_fut set_answers set_sent
                   s_next s_dag s_clients s_set s_slog s_owned s_tlog s_pend s_fut s_answers s_sent] in H.

Lemma session_info_get sid s es md :
  session_info sid s = Some (es, md) <-> get sid (s_clients s) = Some (CSess es md).
Proof.
  unfold session_info. destruct (get sid (s_clients s)) as [[]|]; split; congruence.
Qed.

Lemma process_info_get pid s us :
  process_info pid s = Some us <-> get pid (s_clients s) = Some (CProc us).
Proof.
  unfold process_info. destruct (get pid (s_clients s)) as [[]|]; split; congruence.
Qed.

(* ---- edges ---- *)

Lemma connect_owner_none f t s :
  connect_owner f t None s =
  (set_dag (fst (add_edge f t None (s_dag s))) s, snd (add_edge f t None (s_dag s))).
Proof.
  unfold connect_owner. destruct (add_edge f t None (s_dag s)) as [d []]; reflexivity.
Qed.

Lemma connect_owner_some f t sid s es md : session_info sid s = Some (es, md) ->
  connect_owner f t (Some sid) s =
  (match snd (add_edge f t (Some sid) (s_dag s)) with
   | Cyclic => set_dag (fst (add_edge f t (Some sid) (s_dag s))) s
   | _ => set_clients (put sid (CSess (sadd (f, t) es) md) (s_clients s))
            (set_dag (fst (add_edge f t (Some sid) (s_dag s))) s)
   end, snd (add_edge f t (Some sid) (s_dag s))).
Proof.
  intros E. unfold connect_owner. destruct (add_edge f t (Some sid) (s_dag s)) as [d r].
  cbn [fst snd]. change (session_info sid (set_dag d s)) with (session_info sid s). rewrite E.
  destruct r; reflexivity.
Qed.

Lemma disconnect_owner_none f t s :
  disconnect_owner f t None s =
  (set_dag (fst (remove_edge f t None (s_dag s))) s, snd (remove_edge f t None (s_dag s))).
Proof.
  unfold disconnect_owner. destruct (remove_edge f t None (s_dag s)) as [d []]; reflexivity.
Qed.

Lemma disconnect_owner_some f t sid s es md : session_info sid s = Some (es, md) ->
  disconnect_owner f t (Some sid) s =
  (set_clients (put sid (CSess (sdel (f, t) es) md) (s_clients s))
     (set_dag (fst (remove_edge f t (Some sid) (s_dag s))) s),
   snd (remove_edge f t (Some sid) (s_dag s))).
Proof.
  intros E. unfold disconnect_owner. destruct (remove_edge f t (Some sid) (s_dag s)) as [d r].
  cbn [fst snd]. change (session_info sid (set_dag d s)) with (session_info sid s). rewrite E.
  reflexivity.
Qed.

Lemma edge_dec d f t : DInv d -> has_edge d f t \/ ~ has_edge d f t.
Proof.
  intros I. rewrite (i_edge d I), <- mem_In. destruct (mem (f, t) (keys (d_owners d))); [now left|].
  right; discriminate.
Qed.

Definition drop_step (sid : nat) (acc : server * list topic) (e : edge) : server * list topic :=
  let '(s', ts) := acc in
  let '(s'', ch) := disconnect_owner (fst e) (snd e) (Some sid) s' in
  (s'', if ch : bool then sadd (snd e) ts else ts).

Lemma drop_fold sid md : forall es s es1 ts, session_info sid s = Some (es1, md) -> DInv (s_dag s) ->
  NoDup ts ->
  exists d' es' ts',
    fold_left (drop_step sid) es (s, ts) =
      (set_clients (put sid (CSess es' md) (s_clients s)) (set_dag d' s), ts') /\
    DInv d' /\
    (forall e o, owner_of d' e o <-> owner_of (s_dag s) e o /\ ~ (o = Some sid /\ In e es)) /\
    (forall e, In e es' <-> In e es1 /\ ~ In e es) /\
    (forall t, In t ts' <-> In t ts \/
       exists f, has_edge (s_dag s) f t /\ ~ has_edge d' f t) /\
    NoDup ts'.
Proof.
  induction es as [|e es IH]; intros s es1 ts Hs I ND; cbn [fold_left].
  - exists (s_dag s), es1, ts. split.
    { f_equal. rewrite put_get by now apply session_info_get. destruct s; reflexivity. }
    split; [assumption|]. split; [cbn; tauto|]. split; [cbn; tauto|].
    split; [|assumption]. intros t; split; [auto|]. intros [?|[f [? ?]]]; [assumption|tauto].
  - destruct e as [f t]. cbn [drop_step fst snd].
    rewrite (disconnect_owner_some f t sid s es1 md Hs).
    pose proof (DInv_remove (s_dag s) f t (Some sid) I) as I1.
    pose proof (fun e o => remove_edge_owner (s_dag s) f t (Some sid) e o I) as O1.
    destruct (remove_edge f t (Some sid) (s_dag s)) as [d1 ch] eqn:E1; cbn [fst snd] in *.
    pose proof (remove_edge_changed (s_dag s) f t (Some sid) d1 ch I E1) as C1.
    set (s1 := set_clients (put sid (CSess (sdel (f, t) es1) md) (s_clients s)) (set_dag d1 s)).
    destruct (IH s1 (sdel (f, t) es1) (if ch then sadd t ts else ts)) as [d' [es' [ts' [Eq [I' [O' [L' [T' ND']]]]]]]].
    { apply session_info_get. unfold s1; sproj. apply get_put_eq. }
    { exact I1. }
    { destruct ch; [now apply NoDup_sadd|assumption]. }
    change (s_dag s1) with d1 in *.
    change (s_clients s1) with (put sid (CSess (sdel (f, t) es1) md) (s_clients s)) in Eq.
    rewrite put_put in Eq.
    exists d', es', ts'. split; [exact Eq|]. split; [assumption|]. split.
    { intros e o. rewrite O', O1. cbn [In].
      assert (Q : (f, t) = e <-> e = (f, t)) by (split; congruence). rewrite Q. tauto. }
    split.
    { intros e. rewrite L', In_sdel. cbn [In].
      assert (Q : (f, t) = e <-> e = (f, t)) by (split; congruence). rewrite Q. tauto. }
    split; [|assumption]. intros x. rewrite T'.
    assert (Sub : forall a b, has_edge d1 a b -> has_edge (s_dag s) a b).
    { intros a b. rewrite (has_edge_owner d1), (has_edge_owner (s_dag s)) by assumption.
      intros [o J]. exists o. apply O1 in J; tauto. }
    assert (Sub' : forall a b, has_edge d' a b -> has_edge d1 a b).
    { intros a b. rewrite (has_edge_owner d'), (has_edge_owner d1) by assumption.
      intros [o J]. exists o. apply O' in J; tauto. }
    assert (Oth : forall a b, (a, b) <> (f, t) -> has_edge (s_dag s) a b -> has_edge d1 a b).
    { intros a b N. rewrite (has_edge_owner d1), (has_edge_owner (s_dag s)) by assumption.
      intros [o J]. exists o. apply O1. split; [assumption|]. intros [K _]; congruence. }
    split.
    + intros [J|[g [A B]]].
      * destruct ch; [|now left]. apply In_sadd in J as [->|J]; [|now left].
        right; exists f. destruct (proj1 C1 eq_refl) as [A B]. split; [assumption|].
        intros K; apply B; auto.
      * right; exists g. split; [auto|assumption].
    + intros [J|[g [A B]]].
      * left. destruct ch; [apply In_sadd; now right|assumption].
      * destruct (dec (g, x) (f, t)) as [Eg|Ng].
        -- injection Eg as -> ->. destruct ch; [left; apply In_sadd; now left|].
           destruct (edge_dec d1 f t I1) as [K|K].
           ++ right; exists f; auto.
           ++ exfalso. assert (false = true) by (apply C1; auto). discriminate.
        -- right; exists g; split; [auto|assumption].
Qed.

(* ---- settings ---- *)

(** A settings entry after session [sid] is gone. *)
Definition without_session (sid : nat) (st : sstate) : option sstate :=
  match st_proc st with
  | None => None
  | Some _ => Some (mkSt (st_value st) None (st_proc st))
  end.

Definition rss_step (sid : nat) (s' : server) (a : addr) : server :=
  match get a (s_set s') with
  | None => s'
  | Some st =>
      if negb (eqd (st_sess st) (Some sid)) then s'
      else match st_proc st with
           | None => set_set (del a (s_set s')) s'
           | Some _ => set_set (put a (mkSt (st_value st) None (st_proc st)) (s_set s')) s'
           end
  end.

Definition rss_entry (sid : nat) (inl : bool) (o : option sstate) : option sstate :=
  match o with
  | None => None
  | Some st => if inl && eqd (st_sess st) (Some sid) then without_session sid st else Some st
  end.

Lemma rss_fold sid : forall addrs s,
  exists x, fold_left (rss_step sid) addrs s = set_set x s /\
    (forall a, get a x = rss_entry sid (mem a addrs) (get a (s_set s))) /\
    (NoDup (keys (s_set s)) -> NoDup (keys x)).
Proof.
  induction addrs as [|b addrs IH]; intros s; cbn [fold_left].
  - exists (s_set s). split; [destruct s; reflexivity|]. split; [|auto].
    intros a. cbn. destruct (get a (s_set s)); reflexivity.
  - assert (H : exists x, rss_step sid s b = set_set x s /\
       (forall a, get a x = rss_entry sid (eqd a b) (get a (s_set s))) /\
       (NoDup (keys (s_set s)) -> NoDup (keys x))).
    { unfold rss_step. destruct (get b (s_set s)) as [st|] eqn:G.
      - destruct (eqd (st_sess st) (Some sid)) eqn:E; cbn [negb].
        + destruct (st_proc st) as [p|] eqn:P.
          * eexists; split; [reflexivity|]. split; [|apply NoDup_keys_put].
            intros a. rewrite get_put. unfold eqd at 1. destruct (dec a b) as [->|N].
            -- rewrite G. cbn. rewrite E. unfold without_session. now rewrite P.
            -- cbn. destruct (get a (s_set s)); reflexivity.
          * eexists; split; [reflexivity|]. split; [|apply NoDup_keys_del].
            intros a. rewrite get_del. unfold eqd at 1. destruct (dec a b) as [->|N].
            -- rewrite G. cbn. rewrite E. unfold without_session. now rewrite P.
            -- cbn. destruct (get a (s_set s)); reflexivity.
        + exists (s_set s). split; [destruct s; reflexivity|]. split; [|auto].
          intros a. unfold eqd at 1. destruct (dec a b) as [->|N].
          * rewrite G. cbn. now rewrite E.
          * cbn. destruct (get a (s_set s)); reflexivity.
      - exists (s_set s). split; [destruct s; reflexivity|]. split; [|auto].
        intros a. unfold eqd at 1. destruct (dec a b) as [->|N].
        + now rewrite G.
        + cbn. destruct (get a (s_set s)); reflexivity. }
    destruct H as [x [Ex [Gx Nx]]]. rewrite Ex.
    destruct (IH (set_set x s)) as [y [Ey [Gy Ny]]]. exists y. split; [rewrite Ey; reflexivity|].
    split; [|intros ND; apply Ny; sproj; auto]. intros a. rewrite Gy. sproj. rewrite Gx.
    change (mem a (b :: addrs)) with (eqd a b || mem a addrs).
    destruct (get a (s_set s)) as [st|]; [|destruct (mem a addrs); reflexivity].
    cbn [rss_entry]. destruct (eqd a b) eqn:Eab; cbn [andb orb].
    + destruct (eqd (st_sess st) (Some sid)) eqn:E; [|cbn; rewrite E; now rewrite andb_false_r].
      unfold without_session. destruct (st_proc st) eqn:P; [|reflexivity].
      cbn. destruct (mem a addrs); reflexivity.
    + cbn. reflexivity.
Qed.

Lemma remove_settings_for_session_eq sid s :
  exists x, remove_settings_for_session sid s = set_set x (set_owned (del sid (s_owned s)) s) /\
    (forall a, get a x = rss_entry sid (mem a (getd sid [] (s_owned s))) (get a (s_set s))) /\
    (NoDup (keys (s_set s)) -> NoDup (keys x)).
Proof. exact (rss_fold sid (getd sid [] (s_owned s)) (set_owned (del sid (s_owned s)) s)). Qed.

Definition append_all {A} (es : list A) (L : log A) : log A := fold_left (fun L e => append e L) es L.

(** A settings entry after process [pid], which last set it, is gone. *)
Definition without_process (s : server) (a : addr) (st : sstate) : option sstate :=
  match st_sess st with
  | None => None
  | Some sid => match initial_settings sid a s with
                | None => None
                | Some v => Some (mkSt v (Some sid) None)
                end
  end.

Definition rsp_step (s' : server) (a : addr) : server :=
  match get a (s_set s') with
  | None => s'
  | Some st =>
      match st_sess st with
      | None => set_set (del a (s_set s')) s'
      | Some sid =>
          match initial_settings sid a s' with
          | None => set_set (del a (s_set s')) s'
          | Some v =>
              append_settings_event (mkSev SETTINGS_UPDATED a v (Some sid) None)
                (set_set (put a (mkSt v (Some sid) None) (s_set s')) s')
          end
      end
  end.

(** The events written when the entries of [addrs] lose their process. *)
Definition rsp_event (s : server) (a : addr) : list sev :=
  match get a (s_set s) with
  | None => []
  | Some st => match without_process s a st with
               | Some st' => [mkSev SETTINGS_UPDATED a (st_value st') (st_sess st') None]
               | None => []
               end
  end.

Lemma set_same_set s : set_set (s_set s) s = s.
Proof. now destruct s. Qed.
Lemma set_same_slog s : set_slog (s_slog s) s = s.
Proof. now destruct s. Qed.

Lemma rsp_one s a :
  exists x, rsp_step s a = set_slog (append_all (rsp_event s a) (s_slog s)) (set_set x s) /\
    (forall b, get b x = if eqd b a then match get a (s_set s) with
                                         | Some st => without_process s a st | None => None end
                         else get b (s_set s)) /\
    (NoDup (keys (s_set s)) -> NoDup (keys x)).
Proof.
  unfold rsp_step, rsp_event, without_process. destruct (get a (s_set s)) as [st|] eqn:G.
  - destruct (st_sess st) as [sid|]; [destruct (initial_settings sid a s) as [v|]|].
    + eexists; split; [reflexivity|]. split; [|apply NoDup_keys_put].
      intros b. rewrite get_put. unfold eqd. destruct (dec b a); reflexivity.
    + eexists; split; [cbn; rewrite <- set_same_slog at 1; reflexivity|]. split; [|apply NoDup_keys_del].
      intros b. rewrite get_del. unfold eqd. destruct (dec b a); reflexivity.
    + eexists; split; [cbn; rewrite <- set_same_slog at 1; reflexivity|]. split; [|apply NoDup_keys_del].
      intros b. rewrite get_del. unfold eqd. destruct (dec b a); reflexivity.
  - exists (s_set s). split; [cbn; now rewrite set_same_set, set_same_slog|]. split; [|auto].
    intros b. unfold eqd. destruct (dec b a) as [->|]; [assumption|reflexivity].
Qed.

Lemma append_all_app {A} (l1 l2 : list A) L : append_all (l1 ++ l2) L = append_all l2 (append_all l1 L).
Proof. apply fold_left_app. Qed.

Lemma rsp_fold : forall addrs s, NoDup addrs ->
  exists x, fold_left rsp_step addrs s =
      set_slog (append_all (flat_map (rsp_event s) addrs) (s_slog s)) (set_set x s) /\
    (forall b, get b x = if mem b addrs then match get b (s_set s) with
                                             | Some st => without_process s b st | None => None end
                         else get b (s_set s)) /\
    (NoDup (keys (s_set s)) -> NoDup (keys x)).
Proof.
  induction addrs as [|a addrs IH]; intros s ND; cbn [fold_left].
  - exists (s_set s). split; [cbn; now rewrite set_same_set, set_same_slog|]. split; [reflexivity|auto].
  - inversion ND as [|? ? N ND']; subst.
    destruct (rsp_one s a) as [x [Ex [Gx Nx]]]. rewrite Ex.
    set (s1 := set_slog (append_all (rsp_event s a) (s_slog s)) (set_set x s)).
    destruct (IH s1 ND') as [y [Ey [Gy Ny]]].
    assert (Same : forall b, In b addrs -> rsp_event s1 b = rsp_event s b).
    { intros b I. unfold rsp_event. change (s_set s1) with x. rewrite Gx.
      assert (Nb : b <> a) by congruence. rewrite (proj2 (eqd_false b a) Nb). reflexivity. }
    assert (Fm : flat_map (rsp_event s1) addrs = flat_map (rsp_event s) addrs).
    { clear - Same. induction addrs as [|b l IH]; cbn; [reflexivity|].
      rewrite Same by now left. f_equal. apply IH. intros; apply Same; now right. }
    exists y. split.
    { rewrite Ey, Fm. cbn [flat_map]. rewrite append_all_app. reflexivity. }
    split; [|intros K; apply Ny; exact (Nx K)].
    intros b. rewrite Gy. change (s_set s1) with x. rewrite Gx.
    change (mem b (a :: addrs)) with (eqd b a || mem b addrs).
    destruct (eqd b a) eqn:E; cbn [orb]; [|reflexivity].
    apply (proj1 (eqd_true b a)) in E; subst b.
    rewrite (proj2 (mem_false a addrs) N). reflexivity.
Qed.

Definition of_process (pid : nat) (s : server) : list addr :=
  map fst (filter (fun p => eqd (st_proc (snd p)) (Some pid)) (s_set s)).

Lemma of_process_In pid s a : NoDup (keys (s_set s)) ->
  (In a (of_process pid s) <-> exists st, get a (s_set s) = Some st /\ st_proc st = Some pid).
Proof.
  intros ND. unfold of_process. rewrite in_map_iff. split.
  - intros [[a' st] [E I]]. cbn in E; subst a'. apply filter_In in I as [I P].
    apply (proj1 (eqd_true _ _)) in P. exists st. split; [now apply In_get|assumption].
  - intros [st [G P]]. exists (a, st). split; [reflexivity|]. apply filter_In. split.
    + now apply get_In.
    + now apply eqd_true.
Qed.

Lemma NoDup_of_process pid s : NoDup (keys (s_set s)) -> NoDup (of_process pid s).
Proof.
  unfold of_process, keys. induction (s_set s) as [|[a st] l IH]; cbn; intros ND; [constructor|].
  inversion ND as [|? ? N ND']; subst. destruct (eqd (st_proc st) (Some pid)); cbn; [|auto].
  constructor; [|auto]. intros I. apply N. apply in_map_iff in I as [p [E I]].
  apply filter_In in I as [I _]. apply in_map_iff; eauto.
Qed.

Lemma remove_settings_for_process_eq pid s : NoDup (keys (s_set s)) ->
  exists x, remove_settings_for_process pid s =
      set_slog (append_all (flat_map (rsp_event s) (of_process pid s)) (s_slog s)) (set_set x s) /\
    (forall a, get a x = match get a (s_set s) with
                         | Some st => if eqd (st_proc st) (Some pid) then without_process s a st
                                      else Some st
                         | None => None
                         end) /\
    NoDup (keys x).
Proof.
  intros ND. destruct (rsp_fold (of_process pid s) s (NoDup_of_process pid s ND)) as [x [E [G N]]].
  exists x. split; [exact E|]. split; [|auto]. intros a. rewrite G.
  destruct (mem a (of_process pid s)) eqn:M.
  - apply mem_In in M. apply (of_process_In pid s a ND) in M as [st [Ga P]]. rewrite Ga.
    now rewrite (proj2 (eqd_true _ _) P).
  - apply mem_false in M. destruct (get a (s_set s)) as [st|] eqn:Ga; [|reflexivity].
    destruct (eqd (st_proc st) (Some pid)) eqn:P; [|reflexivity].
    apply (proj1 (eqd_true _ _)) in P. exfalso; apply M. apply of_process_In; eauto.
Qed.

(** The entry of a component when session [sid] registers it. *)
Definition with_session (sid : nat) (c : comp) (o : option sstate) : sstate :=
  match o with
  | Some st => match st_proc st with
               | Some _ => mkSt (st_value st) (Some sid) (st_proc st)
               | None => mkSt (cm_init c) (Some sid) None
               end
  | None => mkSt (cm_init c) (Some sid) None
  end.

Definition initial_event (sid : nat) (c : comp) : sev :=
  mkSev INITIAL_SETTINGS (cm_addr c) (cm_init c) (Some sid) None.

Lemma apply_fold sid : forall md s, NoDup (keys md) -> (forall a c, In (a, c) md -> cm_addr c = a) ->
  exists x, fold_left (apply_metadata_one sid) (map snd md) s =
      set_slog (append_all (map (fun p => initial_event sid (snd p)) md) (s_slog s)) (set_set x s) /\
    (forall a, get a x = match get a md with
                         | Some c => Some (with_session sid c (get a (s_set s)))
                         | None => get a (s_set s)
                         end) /\
    (NoDup (keys (s_set s)) -> NoDup (keys x)).
Proof.
  induction md as [|[a c] md IH]; intros s ND Ky; cbn [fold_left map snd].
  - exists (s_set s). split; [cbn; now rewrite set_same_set, set_same_slog|]. split; [reflexivity|auto].
  - cbn [keys map fst] in ND. inversion ND as [|? ? N ND']; subst.
    assert (Ea : cm_addr c = a) by (apply Ky; now left).
    assert (E1 : apply_metadata_one sid s c =
       set_slog (append (initial_event sid c) (s_slog s))
         (set_set (put a (with_session sid c (get a (s_set s))) (s_set s)) s)).
    { unfold apply_metadata_one, initial_event. rewrite Ea. reflexivity. }
    rewrite E1. set (s1 := set_slog _ _).
    destruct (IH s1 ND') as [y [Ey [Gy Ny]]]; [intros; apply Ky; now right|].
    exists y. split; [rewrite Ey; reflexivity|].
    split; [|intros K; apply Ny; unfold s1; sproj; now apply NoDup_keys_put].
    intros b. rewrite Gy. change (s_set s1) with (put a (with_session sid c (get a (s_set s))) (s_set s)).
    rewrite get_put. cbn [get]. destruct (dec b a) as [->|Nb]; [|reflexivity].
    destruct (get a md) eqn:Gm; [|reflexivity].
    exfalso; apply N. now apply get_Some_key in Gm.
Qed.

Lemma apply_metadata_eq sid md s : NoDup (keys md) -> (forall a c, In (a, c) md -> cm_addr c = a) ->
  exists x os, apply_metadata sid md s =
      set_owned (put sid os (s_owned s))
        (set_slog (append_all (map (fun p => initial_event sid (snd p)) md) (s_slog s))
           (set_set x s)) /\
    (forall a, get a x = match get a md with
                         | Some c => Some (with_session sid c (get a (s_set s)))
                         | None => get a (s_set s)
                         end) /\
    (NoDup (keys (s_set s)) -> NoDup (keys x)) /\
    (forall a, In a os <-> In a (keys md)).
Proof.
  intros ND Ky. destruct (apply_fold sid md s ND Ky) as [x [E [G N]]].
  unfold apply_metadata. rewrite E. eexists x, _. split; [reflexivity|]. split; [exact G|].
  split; [exact N|]. intros a.
  assert (Q : forall (l : list comp) acc, In a (fold_left (fun acc c => sadd (cm_addr c) acc) l acc) <->
              In a acc \/ exists c, In c l /\ cm_addr c = a).
  { induction l as [|c l IH]; intros acc; cbn [fold_left].
    - split; [auto|]. intros [?|[c [[] _]]]; assumption.
    - rewrite IH, In_sadd. split.
      + intros [[->|I]|[c' [I E']]]; [right; exists c; split; [now left|reflexivity]|now left|].
        right; exists c'; split; [now right|assumption].
      + intros [I|[c' [[->|I] E']]]; [left; now right|left; left; congruence|].
        right; eauto. }
  rewrite Q. unfold keys. rewrite in_map_iff. split.
  - intros [[]|[c [I E']]]. apply in_map_iff in I as [[a' c'] [E2 I]]. cbn in E2; subst c'.
    exists (a', c). split; [|assumption]. cbn. rewrite <- E'. symmetry. now apply Ky.
  - intros [[a' c] [E' I]]. cbn in E'; subst a'. right; exists c. split.
    + apply in_map_iff; now exists (a, c).
    + now apply Ky.
Qed.

Lemma set_metadata_eq sid md s es md0 : session_info sid s = Some (es, md0) ->
  set_metadata sid md s = set_clients (put sid (CSess es md) (s_clients s)) s.
Proof. intros E. unfold set_metadata. now rewrite E. Qed.

(* ---- requests ---- *)

Definition gone_step (s' : server) (req : nat) : server :=
  match get req (s_pend s') with
  | None => s'
  | Some _ => set_result req RespGone (set_pend (del req (s_pend s')) s')
  end.

Lemma set_same_fut s : set_fut (s_fut s) s = s.
Proof. now destruct s. Qed.

Definition resolve (r : response) (o : option future) : option future :=
  match o with Some FWaiting => Some (FDone r) | x => x end.

Lemma set_result_eq req r s :
  exists y, set_result req r s = set_fut y s /\
    (forall q, get q y = if eqd q req then resolve r (get q (s_fut s)) else get q (s_fut s)) /\
    (forall q, In q (keys y) <-> In q (keys (s_fut s))) /\
    (NoDup (keys (s_fut s)) -> NoDup (keys y)).
Proof.
  unfold set_result. destruct (get req (s_fut s)) as [[]|] eqn:G;
    try (exists (s_fut s); split; [now rewrite set_same_fut|]; split;
         [intros q; unfold eqd; destruct (dec q req) as [->|]; [rewrite G; reflexivity|reflexivity]
         |split; [reflexivity|auto]]).
  eexists; split; [reflexivity|]. split.
  - intros q. rewrite get_put. unfold eqd. destruct (dec q req) as [->|]; [|reflexivity].
    now rewrite G.
  - split; [|apply NoDup_keys_put]. intros q. rewrite keys_put. split; [|auto].
    intros [->|I]; [|assumption]. now apply get_Some_key in G.
Qed.

Lemma gone_fold : forall reqs s, NoDup reqs ->
  exists x y, fold_left gone_step reqs s = set_fut y (set_pend x s) /\
    (forall q, get q x = if mem q reqs then None else get q (s_pend s)) /\
    (forall q, get q y = if mem q reqs && (if get q (s_pend s) then true else false)
                         then resolve RespGone (get q (s_fut s)) else get q (s_fut s)) /\
    (forall q, In q (keys y) <-> In q (keys (s_fut s))) /\
    (NoDup (keys (s_fut s)) -> NoDup (keys y)) /\ (NoDup (keys (s_pend s)) -> NoDup (keys x)).
Proof.
  induction reqs as [|r reqs IH]; intros s ND; cbn [fold_left].
  - exists (s_pend s), (s_fut s). split; [destruct s; reflexivity|]. repeat (split; [reflexivity|]).
    split; auto.
  - inversion ND as [|? ? N ND']; subst. unfold gone_step at 2.
    destruct (get r (s_pend s)) as [p|] eqn:G.
    + destruct (set_result_eq r RespGone (set_pend (del r (s_pend s)) s)) as [y0 [E0 [G0 [K0 N0]]]].
      rewrite E0. sproj_in G0. sproj_in K0. sproj_in N0.
      destruct (IH (set_fut y0 (set_pend (del r (s_pend s)) s)) ND') as [x [y [E [Gx [Gy [Ky [Ny Nx]]]]]]].
      sproj_in Gx. sproj_in Gy. sproj_in Ky. sproj_in Ny. sproj_in Nx.
      exists x, y. split; [rewrite E; reflexivity|]. split; [|split; [|split; [|split]]].
      * intros q. rewrite Gx, get_del. change (mem q (r :: reqs)) with (eqd q r || mem q reqs).
        unfold eqd. destruct (dec q r); cbn; [destruct (mem q reqs)|]; reflexivity.
      * intros q. rewrite Gy, G0, get_del. change (mem q (r :: reqs)) with (eqd q r || mem q reqs).
        unfold eqd. destruct (dec q r) as [->|Nq]; cbn [orb andb]; [|reflexivity].
        rewrite G, andb_false_r. reflexivity.
      * intros q. rewrite Ky, K0. reflexivity.
      * auto.
      * intros K. apply Nx. now apply NoDup_keys_del.
    + destruct (IH s ND') as [x [y [E [Gx [Gy [Ky [Ny Nx]]]]]]]. exists x, y. split; [exact E|].
      split; [|split; [|split; [|split]]]; try assumption.
      * intros q. rewrite Gx. change (mem q (r :: reqs)) with (eqd q r || mem q reqs).
        unfold eqd. destruct (dec q r) as [->|]; cbn; [|reflexivity].
        rewrite G; destruct (mem r reqs); reflexivity.
      * intros q. rewrite Gy. change (mem q (r :: reqs)) with (eqd q r || mem q reqs).
        unfold eqd. destruct (dec q r) as [->|]; cbn [orb]; [|reflexivity].
        rewrite G, !andb_false_r. reflexivity.
Qed.

Definition requests_of (pid : nat) (s : server) : list nat :=
  map fst (filter (fun p => eqd (snd p) pid) (s_pend s)).

Lemma process_gone_eq pid s : NoDup (keys (s_set s)) -> NoDup (keys (s_pend s)) ->
  exists x y z, process_gone pid s =
     set_clients (del pid (s_clients s))
       (set_tlog (append (mkTev PROCESS_CHANGED [] None (Some pid)) (s_tlog s))
         (set_slog (append_all (flat_map (rsp_event s) (of_process pid s)) (s_slog s))
           (set_set z (set_fut y (set_pend x s))))) /\
    (forall q, get q x = if eqd (get q (s_pend s)) (Some pid) then None else get q (s_pend s)) /\
    (forall q, get q y = if eqd (get q (s_pend s)) (Some pid) then resolve RespGone (get q (s_fut s))
                         else get q (s_fut s)) /\
    (forall q, In q (keys y) <-> In q (keys (s_fut s))) /\
    (NoDup (keys (s_fut s)) -> NoDup (keys y)) /\ NoDup (keys x) /\
    (forall a, get a z = match get a (s_set s) with
                         | Some st => if eqd (st_proc st) (Some pid) then without_process s a st
                                      else Some st
                         | None => None
                         end) /\
    NoDup (keys z).
Proof.
  intros NS NP.
  assert (NR : NoDup (requests_of pid s)).
  { unfold requests_of. unfold keys in NP. induction (s_pend s) as [|[q p] l IH]; cbn; [constructor|].
    cbn in NP. inversion NP as [|? ? N ND']; subst. destruct (eqd p pid); cbn; [|auto].
    constructor; [|auto]. intros I. apply N. apply in_map_iff in I as [e [E I]].
    apply filter_In in I as [I _]. apply in_map_iff; eauto. }
  assert (MR : forall q, mem q (requests_of pid s) = eqd (get q (s_pend s)) (Some pid)).
  { intros q. destruct (eqd (get q (s_pend s)) (Some pid)) eqn:E.
    - apply (proj1 (eqd_true _ _)) in E. apply mem_In. apply in_map_iff. exists (q, pid).
      split; [reflexivity|]. apply filter_In. split; [now apply get_In|cbn; apply eqd_refl].
    - apply (proj1 (eqd_false _ _)) in E. apply mem_false. intros I. apply E.
      apply in_map_iff in I as [[q' p] [Eq I]]. cbn in Eq; subst q'.
      apply filter_In in I as [I Ep]. cbn in Ep. apply (proj1 (eqd_true _ _)) in Ep; subst p.
      now apply In_get. }
  destruct (gone_fold (requests_of pid s) s NR) as [x [y [E [Gx [Gy [Ky [Ny Nx]]]]]]].
  destruct (remove_settings_for_process_eq pid (set_fut y (set_pend x s))) as [z [Ez [Gz Nz]]].
  { exact NS. }
  exists x, y, z. split.
  { change (process_gone pid s) with
      (let s2 := remove_settings_for_process pid (fold_left gone_step (requests_of pid s) s) in
       let s3 := append_topology_event (mkTev PROCESS_CHANGED [] None (Some pid)) s2 in
       set_clients (del pid (s_clients s3)) s3).
    rewrite E, Ez. reflexivity. }
  split. { intros q. rewrite Gx, MR. reflexivity. }
  split.
  { intros q. rewrite Gy, MR. destruct (eqd (get q (s_pend s)) (Some pid)) eqn:Eq; [|reflexivity].
    apply (proj1 (eqd_true _ _)) in Eq. rewrite Eq. reflexivity. }
  split; [exact Ky|]. split; [exact Ny|]. split; [auto|]. split; [|exact Nz].
  intros a. rewrite Gz. reflexivity.
Qed.
