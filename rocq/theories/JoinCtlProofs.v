(* The control invariant of JoinModel.v is kept by every step. *)

From Coq Require Import String List Arith Bool Lia Relations.
From Verif Require Import Dict DagModel DagSpec DagProofs JoinModel JoinSpec JoinProofs.
Import ListNotations.

Definition same_for (w w' : world) (i : nat) : Prop :=
  (In i (w_clients w') <-> In i (w_clients w)) /\ get i (w_waiting w') = get i (w_waiting w) /\
  (w_job w' = Some (JAddress i) <-> w_job w = Some (JAddress i)) /\ (about (w_job w') i <-> about (w_job w) i) /\
  ((exists todo cur, w_job w = Some (JNotify (ForSub i) todo cur)) -> exists todo cur, w_job w' = Some (JNotify (ForSub i) todo cur)).

Lemma pub_frame w w' p x : pub_ok w p x -> w_next w <= w_next w' -> get p (w_subs w') = None -> same_for w w' p -> pub_ok w' p x.
Proof.
  unfold pub_ok, same_for. intros [A [_ [M [C1 C2]]]] N S [H1 [H2 [H3 [H4 _]]]]. rewrite H2.
  split; [lia|]. split; [exact S|]. split; [|split; tauto].
  destruct (p_stage x); tauto.
Qed.

Lemma sub_frame w w' s x : sub_ok w s x -> w_next w <= w_next w' -> same_for w w' s -> sub_ok w' s x.
Proof.
  unfold sub_ok, same_for. intros [A [B C]] N [H1 [H2 [_ [_ H5]]]]. rewrite H2.
  split; [lia|]. split; [|tauto]. destruct (s_stage x); tauto.
Qed.

Lemma same_refl w w' i : w_clients w' = w_clients w -> w_waiting w' = w_waiting w -> w_job w' = w_job w -> same_for w w' i.
Proof. unfold same_for. intros -> -> E. rewrite E. tauto. Qed.

(* One publisher changes, and nothing else. *)
Lemma Ctl_put_pub w q y y' : Ctl w -> get q (w_pubs w) = Some y -> (p_sent y = true -> p_sent y' = true) ->
  pub_ok (put_pub q y' w) q y' -> Ctl (put_pub q y' w).
Proof.
  intros C G S P. constructor.
  - exact (c_dag _ C).
  - intros p x H. cbn in H. rewrite get_put in H. destruct (dec p q) as [->|N]; [injection H as <-; exact P|].
    eapply pub_frame; [exact (c_pub _ C p x H)|cbn; lia| |now apply same_refl]. exact (proj1 (proj2 (c_pub _ C p x H))).
  - intros s x H. cbn in H. eapply sub_frame; [exact (c_sub _ C s x H)|cbn; lia|now apply same_refl].
  - pose proof (c_job _ C) as J. unfold job_ok in *. cbn. destruct (w_job w) as [[p|c todo cur]|]; [| |exact J].
    + destruct J as [x J]. rewrite get_put. destruct (dec p q); eauto.
    + destruct J as [J1 [J2 [J3 [J4 J5]]]]. split; [exact J1|]. split; [exact J2|]. split; [exact J3|]. split; [exact J4|]. destruct c as [p|s|]; auto.
      destruct J5 as [x [J5 J6]]. rewrite get_put. destruct (dec p q) as [->|]; [|eauto].
      exists y'. split; [reflexivity|]. rewrite G in J5. injection J5 as ->. auto.
  - intros i r H. cbn in H. destruct (c_wait _ C i r H) as [A B]. split; [exact A|]. cbn. rewrite get_put.
    destruct r; try exact B; (destruct (dec i q) as [->|]; [|exact B]); [eauto|destruct B; congruence..].
  - exact (c_nodup _ C).
  - intros i H. destruct (c_client _ C i H) as [A [[x B]|B]]; (split; [exact A|]); [left|now right]. cbn. rewrite get_put. destruct (dec i q); eauto.
  - exact (c_answer _ C).
Qed.

(* One subscriber changes, and nothing else. *)
Lemma Ctl_put_sub w q y y' : Ctl w -> get q (w_subs w) = Some y ->
  sub_ok (put_sub q y' w) q y' -> Ctl (put_sub q y' w).
Proof.
  intros C G P. constructor.
  - exact (c_dag _ C).
  - intros p x H. cbn in H. eapply pub_frame; [exact (c_pub _ C p x H)|cbn; lia| |now apply same_refl].
    cbn. rewrite get_put. destruct (dec p q) as [->|]; [|exact (proj1 (proj2 (c_pub _ C p x H)))].
    rewrite (proj1 (proj2 (c_pub _ C q x H))) in G. discriminate.
  - intros s x H. cbn in H. rewrite get_put in H. destruct (dec s q) as [->|N]; [injection H as <-; exact P|].
    eapply sub_frame; [exact (c_sub _ C s x H)|cbn; lia|now apply same_refl].
  - pose proof (c_job _ C) as J. unfold job_ok in *. cbn. destruct (w_job w) as [[p|c todo cur]|]; [exact J| |exact J].
    destruct J as [J1 [J2 [J3 [J4 J5]]]]. repeat split; auto.
    + now destruct (J3 s H).
    + rewrite get_put. destruct (dec s q); [eauto|]. exact (proj2 (J3 s H)).
    + destruct c as [p|s|]; auto. destruct J5 as [J5 [J6 [x J7]]]. split; [exact J5|]. split; [exact J6|].
      rewrite get_put. destruct (dec s q); eauto.
  - intros i r H. cbn in H. destruct (c_wait _ C i r H) as [A B]. split; [exact A|]. cbn. rewrite get_put.
    destruct r; try exact B; (destruct (dec i q) as [->|]; [|exact B]); [eauto|destruct B; congruence..].
  - exact (c_nodup _ C).
  - intros i H. destruct (c_client _ C i H) as [A [B|[x B]]]; (split; [exact A|]); [now left|right]. cbn. rewrite get_put. destruct (dec i q); eauto.
  - exact (c_answer _ C).
Qed.

Lemma about_addr p q : ~ about (Some (JAddress q)) p.
Proof. intros [a [b H]]. discriminate. Qed.
Lemma about_none p : ~ about None p.
Proof. intros [a [b H]]. discriminate. Qed.
Lemma about_notify c todo cur p : about (Some (JNotify c todo cur)) p <-> c = ForPub p.
Proof. split; [intros [a [b H]]; congruence|intros ->; eexists; eexists; reflexivity]. Qed.

Lemma get_snoc_other {V} (i j : nat) (v : V) l : i <> j -> get i (l ++ [(j, v)]) = get i l.
Proof. intros N. induction l as [|[k w] l IH]; cbn; [destruct (dec i j); congruence|]. destruct (dec i k); [reflexivity|exact IH]. Qed.

Lemma get_snoc_new {V} (i : nat) (v : V) l : get i l = None -> get i (l ++ [(i, v)]) = Some v.
Proof. induction l as [|[k w] l IH]; cbn; [destruct (dec i i); congruence|]. destruct (dec i k); [discriminate|exact IH]. Qed.

Lemma waiting_new w : Ctl w -> get (w_next w) (w_waiting w) = None.
Proof. intros C. destruct (get _ _) as [r|] eqn:G; [|reflexivity]. apply (c_wait _ C) in G as [G _]. lia. Qed.
Lemma pub_new w : Ctl w -> get (w_next w) (w_pubs w) = None.
Proof. intros C. destruct (get _ _) as [r|] eqn:G; [|reflexivity]. apply (c_pub _ C) in G as [G _]. lia. Qed.
Lemma sub_new w : Ctl w -> get (w_next w) (w_subs w) = None.
Proof. intros C. destruct (get _ _) as [r|] eqn:G; [|reflexivity]. apply (c_sub _ C) in G as [G _]. lia. Qed.
Lemma client_new w : Ctl w -> ~ In (w_next w) (w_clients w).
Proof. intros C G. apply (c_client _ C) in G as [G _]. lia. Qed.
Lemma job_new w : Ctl w -> w_job w <> Some (JAddress (w_next w)) /\ ~ about (w_job w) (w_next w) /\
  forall todo cur, w_job w <> Some (JNotify (ForSub (w_next w)) todo cur).
Proof.
  intros C. pose proof (c_job _ C) as J. unfold job_ok in J. destruct (w_job w) as [[p|c todo cur]|].
  - destruct J as [x J]. apply (c_pub _ C) in J as [J _]. split; [intros E; injection E as ->; lia|]. split; [apply about_addr|discriminate].
  - split; [discriminate|]. destruct J as [_ [_ [_ [_ J]]]]. split.
    + rewrite about_notify. intros ->. destruct J as [x [J _]]. apply (c_pub _ C) in J as [J _]. lia.
    + intros todo' cur' E. injection E as -> -> ->. destruct J as [_ [_ [x J]]]. apply (c_sub _ C) in J as [J _]. lia.
  - split; [discriminate|]. split; [apply about_none|discriminate].
Qed.

(* A new call. *)
Lemma Ctl_ask w r : Ctl w -> match r with RPub | RSub => False | _ => True end -> Ctl (ask r w).
Proof.
  intros C NR.
  assert (GW : forall i, i < w_next w -> get i (w_waiting w ++ [(w_next w, r)]) = get i (w_waiting w)).
  { intros i L. induction (w_waiting w) as [|[k v] l IH]; cbn; [destruct (dec i (w_next w)); [lia|reflexivity]|].
    destruct (dec i k); [reflexivity|exact IH]. }
  assert (SF : forall i, i < w_next w -> same_for w (ask r w) i).
  { intros i L. unfold same_for. cbn. rewrite (GW i L). tauto. }
  constructor.
  - exact (c_dag _ C).
  - intros p x H. cbn in H. pose proof (c_pub _ C p x H) as P. eapply pub_frame; [exact P|cbn; lia|exact (proj1 (proj2 P))|].
    apply SF. exact (proj1 P).
  - intros s x H. cbn in H. pose proof (c_sub _ C s x H) as P. eapply sub_frame; [exact P|cbn; lia|]. apply SF. exact (proj1 P).
  - pose proof (c_job _ C) as J. unfold job_ok in *. cbn. destruct (w_job w) as [[p|c todo cur]|]; auto.
    destruct J as [J1 [J2 [J3 [J4 J5]]]]. repeat split; auto; try lia.
    { rewrite GW; [exact (proj1 (J3 s H))|]. destruct (J3 s H) as [_ [x X]]. exact (proj1 (c_sub _ C s x X)). }
    { exact (proj2 (J3 s H)). }
    destruct c as [p|s|]; auto. destruct J5 as [J5 [J6 [x J7]]]. repeat split; eauto. rewrite GW; [exact J6|].
    exact (proj1 (c_sub _ C s x J7)).
  - intros i r' H. cbn in H |- *. destruct (get i (w_waiting w)) as [r0|] eqn:G.
    + assert (r' = r0).
      { clear - G H. revert G H. induction (w_waiting w) as [|[k v] l IH]; cbn; [discriminate|]. destruct (dec i k); [congruence|exact IH]. }
      subst r'. destruct (c_wait _ C i r0 G) as [A B]. split; [lia|exact B].
    + assert (i = w_next w /\ r' = r) as [-> ->].
      { clear - G H. revert G H. induction (w_waiting w) as [|[k v] l IH]; cbn; [destruct (dec i (w_next w)); [|discriminate]; intros _ H; injection H as <-; auto|].
        destruct (dec i k); [discriminate|exact IH]. }
      split; [lia|]. destruct r; try contradiction; (split; [now apply pub_new|now apply sub_new]).
  - exact (c_nodup _ C).
  - intros i H. destruct (c_client _ C i H) as [A B]. split; [cbn; lia|exact B].
  - intros i a H. specialize (c_answer _ C i a H). cbn. lia.
Qed.

Lemma Ctl_call_publish w t : Ctl w -> Ctl (ask RPub (put_pub (w_next w) (mkPub t PAsked false) w)).
Proof.
  intros C. set (n := w_next w). set (w' := ask RPub _).
  assert (SF : forall i, i < n -> same_for w w' i).
  { intros i L. unfold same_for, w'. cbn. rewrite get_snoc_other by (unfold n in L; lia). tauto. }
  destruct (job_new w C) as [J1 [J2 J3]].
  constructor.
  - exact (c_dag _ C).
  - intros p x H. unfold w' in H. cbn in H. rewrite get_put in H. destruct (dec p n) as [->|N].
    + injection H as <-. unfold pub_ok, w'. cbn. split; [unfold n; lia|]. split; [now apply sub_new|].
      split; [split; [reflexivity|]; split; [now apply client_new|]; left; split; [apply get_snoc_new; now apply waiting_new|exact J1]|].
      split; [intros E; destruct (J1 E)|intros E; destruct (J2 E)].
    + pose proof (c_pub _ C p x H) as P. eapply pub_frame; [exact P|unfold w'; cbn; lia|exact (proj1 (proj2 P))|]. apply SF. exact (proj1 P).
  - intros s x H. pose proof (c_sub _ C s x H) as P. eapply sub_frame; [exact P|unfold w'; cbn; lia|]. apply SF. exact (proj1 P).
  - pose proof (c_job _ C) as J. unfold job_ok, w' in *. cbn. destruct (w_job w) as [[p|c todo cur]|]; auto.
    + destruct J as [x J]. rewrite get_put. destruct (dec p n); eauto.
    + destruct J as [K1 [K2 [K3 [K4 K5]]]]. repeat split; auto; try lia.
      { destruct (K3 s H) as [A [x X]]. rewrite get_snoc_other; [exact A|]. pose proof (proj1 (c_sub _ C s x X)). unfold n. lia. }
      { exact (proj2 (K3 s H)). }
      destruct c as [p|s|]; auto.
      * destruct K5 as [x [K5 K6]]. rewrite get_put_neq; [eauto|]. intros E. pose proof (pub_new w C) as PN. fold n in PN. congruence.
      * destruct K5 as [K5 [K6 [x K7]]]. repeat split; eauto. rewrite get_snoc_other; [exact K6|]. pose proof (proj1 (c_sub _ C s x K7)). unfold n. lia.
  - intros i r H. unfold w' in *. cbn in *. destruct (dec i n) as [->|N].
    + unfold n in H at 1. rewrite get_snoc_new in H by now apply waiting_new. injection H as <-. split; [unfold n; lia|]. rewrite get_put_eq. eauto.
    + rewrite get_snoc_other in H by (unfold n in N; exact N). destruct (c_wait _ C i r H) as [A B]. split; [lia|].
      destruct r; rewrite ?get_put_neq by exact N; exact B.
  - exact (c_nodup _ C).
  - intros i H. destruct (c_client _ C i H) as [A B]. unfold w'. cbn. split; [lia|].
    rewrite get_put_neq by (unfold n; lia). exact B.
  - intros i a H. specialize (c_answer _ C i a H). unfold w'. cbn. lia.
Qed.

Lemma Ctl_call_subscribe w t : Ctl w -> Ctl (ask RSub (put_sub (w_next w) (mkSub t SAsked false [] None [] 0 []) w)).
Proof.
  intros C. set (n := w_next w). set (w' := ask RSub _).
  assert (SF : forall i, i < n -> same_for w w' i).
  { intros i L. unfold same_for, w'. cbn. rewrite get_snoc_other by (unfold n in L; lia). tauto. }
  constructor.
  - exact (c_dag _ C).
  - intros p x H. pose proof (c_pub _ C p x H) as P. eapply pub_frame; [exact P|unfold w'; cbn; lia| |apply SF; exact (proj1 P)].
    unfold w'. cbn. rewrite get_put_neq; [exact (proj1 (proj2 P))|]. pose proof (proj1 P). unfold n. lia.
  - intros s x H. unfold w' in H. cbn in H. rewrite get_put in H. destruct (dec s n) as [->|N].
    + injection H as <-. unfold sub_ok, w'. cbn. split; [unfold n; lia|].
      split; [repeat split; apply get_snoc_new; now apply waiting_new|]. intros _. split; [now apply client_new|reflexivity].
    + pose proof (c_sub _ C s x H) as P. eapply sub_frame; [exact P|unfold w'; cbn; lia|]. apply SF. exact (proj1 P).
  - pose proof (c_job _ C) as J. unfold job_ok, w' in *. cbn. destruct (w_job w) as [[p|c todo cur]|]; auto.
    destruct J as [K1 [K2 [K3 [K4 K5]]]]. repeat split; auto; try lia.
    + destruct (K3 s H) as [A [x X]]. rewrite get_snoc_other; [exact A|]. pose proof (proj1 (c_sub _ C s x X)). unfold n. lia.
    + rewrite get_put. destruct (dec s n); [eauto|]. exact (proj2 (K3 s H)).
    + destruct c as [p|s|]; auto. destruct K5 as [K5 [K6 [x K7]]]. split; [exact K5|]. pose proof (proj1 (c_sub _ C s x K7)).
      rewrite get_snoc_other by lia. split; [exact K6|]. rewrite get_put_neq by lia. eauto.
  - intros i r H. unfold w' in *. cbn in *. destruct (dec i n) as [->|N].
    + unfold n in H at 1. rewrite get_snoc_new in H by now apply waiting_new. injection H as <-. split; [unfold n; lia|]. rewrite get_put_eq. eauto.
    + rewrite get_snoc_other in H by (unfold n in N; exact N). destruct (c_wait _ C i r H) as [A B]. split; [lia|].
      destruct r; rewrite ?get_put_neq by exact N; exact B.
  - exact (c_nodup _ C).
  - intros i H. destruct (c_client _ C i H) as [A B]. unfold w'. cbn. split; [lia|].
    rewrite (get_put_neq i n) by (unfold n; lia). exact B.
  - intros i a H. specialize (c_answer _ C i a H). unfold w'. cbn. lia.
Qed.

Lemma client_not_waiting w s : Ctl w -> In s (w_clients w) -> (exists x, get s (w_subs w) = Some x) -> get s (w_waiting w) = None.
Proof.
  intros C I [x G]. destruct (get s (w_waiting w)) as [r|] eqn:W; [|reflexivity]. exfalso.
  destruct (c_wait _ C s r W) as [_ K]. destruct (c_sub _ C s x G) as [_ [_ S]]. destruct r; try (destruct K; congruence).
  - destruct K as [y K]. destruct (c_pub _ C s y K) as [_ [Z _]]. congruence.
  - now destruct (S W).
Qed.

(* The notification goes on. *)
Lemma Ctl_job w c todo cur todo' cur' : Ctl w -> w_job w = Some (JNotify c todo cur) ->
  NoDup todo' -> length todo' <= w_next w -> incl todo' todo -> (forall s, cur' = Some s -> ~ In s todo') ->
  (todo' = todo /\ cur' = None \/ todo' = [] \/ exists s, todo = s :: todo') -> Ctl (set_job (Some (JNotify c todo' cur')) w).
Proof.
  intros C E N L I K T.
  assert (SF : forall i, same_for w (set_job (Some (JNotify c todo' cur')) w) i).
  { intros i. unfold same_for. cbn. rewrite E, !about_notify. repeat split; try tauto; try discriminate.
    intros [a [b H]]. injection H as -> -> ->. eauto. }
  pose proof (c_job _ C) as J. unfold job_ok in J. rewrite E in J. destruct J as [J1 [J2 [J3 [J4 J5]]]].
  constructor.
  - exact (c_dag _ C).
  - intros p x H. pose proof (c_pub _ C p x H) as P. eapply pub_frame; [exact P|cbn; lia|exact (proj1 (proj2 P))|apply SF].
  - intros s x H. pose proof (c_sub _ C s x H) as P. eapply sub_frame; [exact P|cbn; lia|apply SF].
  - unfold job_ok. cbn. split; [exact N|]. split; [exact L|]. split; [intros s H; exact (J3 s (I s H))|]. split; [exact K|].
    destruct c as [p|s|]; auto. destruct J5 as [J5 [J6 J7]]. repeat split; auto.
    destruct T as [[T1 T2]|[T1|[z T1]]]; subst; [|now right|].
    + destruct J5 as [[-> _]|A]; [|subst]; auto.
    + destruct J5 as [[A _]|A]; [|discriminate]. injection A as -> ->. now right.
  - exact (c_wait _ C).
  - exact (c_nodup _ C).
  - exact (c_client _ C).
  - exact (c_answer _ C).
Qed.

Lemma Ctl_set_sync w s : Ctl w -> Ctl (set_sync s w).
Proof.
  intros C. unfold set_sync. destruct (w_job w) as [[p|c todo [s'|]]|] eqn:E; auto. destruct (dec s s'); auto.
  pose proof (c_job _ C) as J. unfold job_ok in J. rewrite E in J. destruct J as [J1 [J2 _]].
  eapply Ctl_job; eauto; [intros x; auto|discriminate].
Qed.

Lemma Ctl_send w p m : Ctl w -> Ctl (set_subs (map (fun e => (fst e, deliver p m (snd e))) (w_subs w)) w).
Proof.
  intros C. set (w' := set_subs _ w).
  assert (GS : forall s x, get s (w_subs w') = Some x -> exists y, get s (w_subs w) = Some y /\ x = deliver p m y).
  { intros s x H. unfold w' in H. cbn in H. rewrite get_map in H. destruct (get s (w_subs w)) as [y|]; [|discriminate]. injection H as <-. eauto. }
  assert (GS' : forall s, (exists y, get s (w_subs w) = Some y) -> exists x, get s (w_subs w') = Some x).
  { intros s [y H]. unfold w'. cbn. rewrite get_map, H. exists (deliver p m y). reflexivity. }
  constructor.
  - exact (c_dag _ C).
  - intros q x H. pose proof (c_pub _ C q x H) as P. eapply pub_frame; [exact P|cbn; lia| |now apply same_refl].
    unfold w'. cbn. rewrite get_map, (proj1 (proj2 P)). reflexivity.
  - intros s x H. destruct (GS s x H) as [y [G ->]]. pose proof (c_sub _ C s y G) as P.
    unfold sub_ok, deliver in *. destruct (mem p (s_chans y)); exact P.
  - pose proof (c_job _ C) as J. unfold job_ok in *. change (w_job w') with (w_job w). destruct (w_job w) as [[q|c todo cur]|]; auto.
    destruct J as [J1 [J2 [J3 [J4 J5]]]]. split; [exact J1|]. split; [exact J2|]. split; [intros s H; split; [exact (proj1 (J3 s H))|apply GS'; exact (proj2 (J3 s H))]|]. split; [exact J4|]. destruct c as [q|s|]; auto.
    destruct J5 as [J5 [J6 J7]]. repeat split; auto.
  - intros i r H. destruct (c_wait _ C i r H) as [A B]. split; [exact A|]. destruct r; auto;
      (split; [exact (proj1 B)|unfold w'; cbn; rewrite get_map, (proj2 B); reflexivity]).
  - exact (c_nodup _ C).
  - intros i H. destruct (c_client _ C i H) as [A [B|B]]; (split; [exact A|]); auto.
  - exact (c_answer _ C).
Qed.

(* A publisher leaves the clients. *)
Lemma Ctl_unclient w i : Ctl w ->
  (forall p x, get p (w_pubs w) = Some x -> p = i -> p_stage x = PGone) ->
  (forall s x, get s (w_subs w) = Some x -> s = i -> s_stage x = SDead \/ s_stage x = SClosed) ->
  Ctl (set_clients (sdel i (w_clients w)) w).
Proof.
  intros C HP HS. set (w' := set_clients _ w).
  assert (SF : forall j, j <> i -> same_for w w' j).
  { intros j N. unfold same_for, w'. cbn. rewrite In_sdel. tauto. }
  constructor.
  - exact (c_dag _ C).
  - intros p x H. pose proof (c_pub _ C p x H) as P. destruct (dec p i) as [->|N].
    + pose proof (HP i x H eq_refl) as G. unfold pub_ok in *. rewrite G in *. unfold w'. cbn. rewrite In_sdel. tauto.
    + eapply pub_frame; [exact P|cbn; lia|exact (proj1 (proj2 P))|now apply SF].
  - intros s x H. pose proof (c_sub _ C s x H) as P. destruct (dec s i) as [->|N].
    + destruct (HS i x H eq_refl) as [G|G]; unfold sub_ok in *; rewrite G in *; unfold w'; cbn; rewrite In_sdel; tauto.
    + eapply sub_frame; [exact P|cbn; lia|now apply SF].
  - exact (c_job _ C).
  - exact (c_wait _ C).
  - cbn. apply NoDup_sdel, (c_nodup _ C).
  - intros j H. cbn in H. apply In_sdel in H as [_ H]. exact (c_client _ C j H).
  - exact (c_answer _ C).
Qed.

Lemma DInv_added d f t r d' : DInv d -> add_edge f t None d = (d', r) -> DInv d'.
Proof. intros D E. pose proof (DInv_add d f t None D) as X. now rewrite E in X. Qed.
Lemma DInv_removed d f t r d' : DInv d -> remove_edge f t None d = (d', r) -> DInv d'.
Proof. intros D E. pose proof (DInv_remove d f t None D) as X. now rewrite E in X. Qed.

(* A call of connect(), disconnect() or dag() is taken: it is answered, and subscribers may be notified. *)
Lemma Ctl_taken w i r d a j : Ctl w -> w_job w = None -> get i (w_waiting w) = Some r -> match r with RPub | RSub => False | _ => True end ->
  DInv d -> (j = None \/ exists t, j = Some (JNotify ForEdge (downstream_subs t (answer_call i a (set_dag d (set_waiting (del i (w_waiting w)) w)))) None)) ->
  Ctl (set_job j (answer_call i a (set_dag d (set_waiting (del i (w_waiting w)) w)))).
Proof.
  intros C E G NR D J. set (w1 := answer_call i a _). set (w' := set_job j w1).
  destruct (c_wait _ C i r G) as [LI _].
  assert (NJ : forall k, j <> Some (JAddress k) /\ ~ about j k).
  { intros k. destruct J as [->|[t ->]]; (split; [discriminate|]); [apply about_none|]. rewrite about_notify. discriminate. }
  assert (SF : forall k, k <> i -> same_for w w' k).
  { intros k N. unfold same_for, w', w1. cbn. rewrite E, get_del_neq by exact N.
    split; [tauto|]. split; [reflexivity|]. split; [split; [intros H; destruct (proj1 (NJ k) H)|discriminate]|].
    split; [split; [intros H; destruct (proj2 (NJ k) H)|intros H; destruct (about_none _ H)]|]. intros [x [y H]]. discriminate. }
  constructor.
  - exact D.
  - intros p x H. pose proof (c_pub _ C p x H) as P. destruct (dec p i) as [->|N].
    + cbn in H. destruct (c_wait _ C i r G) as [_ W]. destruct r; try contradiction; destruct W; congruence.
    + eapply pub_frame; [exact P|cbn; lia|exact (proj1 (proj2 P))|now apply SF].
  - intros s x H. pose proof (c_sub _ C s x H) as P. destruct (dec s i) as [->|N].
    + destruct (c_wait _ C i r G) as [_ W]. cbn in H. destruct r; try contradiction; destruct W; congruence.
    + eapply sub_frame; [exact P|cbn; lia|now apply SF].
  - unfold job_ok. change (w_job w') with j. destruct J as [->|[t ->]]; [exact I|].
    destruct (downstream_subs_fine t w1 (c_nodup _ C) (fun i H => proj1 (c_client _ C i H))) as [A [B D']].
    split; [exact A|]. split; [exact B|]. split; [|split; [discriminate|exact I]].
    intros s H. destruct (D' s H) as [X Y]. split; [|exact Y]. cbn. destruct (dec s i) as [->|N]; [apply get_del_eq|]. rewrite get_del_neq by exact N.
    exact (client_not_waiting w s C X Y).
  - intros k r' H. cbn in H. rewrite get_del in H. destruct (dec k i); [discriminate|]. exact (c_wait _ C k r' H).
  - exact (c_nodup _ C).
  - exact (c_client _ C).
  - intros k b H. cbn in H. apply in_app_or in H as [H|[H|[]]]; [exact (c_answer _ C k b H)|]. injection H as <- <-. exact LI.
Qed.

Lemma set_job_same w : w_job w = None -> set_job None w = w.
Proof. destruct w; cbn. intros ->. reflexivity. Qed.

Lemma Ctl_take w i w' : Ctl w -> step w (Take i) = Some w' -> Ctl w'.
Proof.
  intros C H. cbn [step] in H. destruct (w_job w) eqn:E; [discriminate|]. destruct (get i (w_waiting w)) as [r|] eqn:G; [|discriminate].
  destruct (c_wait _ C i r G) as [LI W]. unfold execute in H. destruct r as [| |f t|f t|].
  - injection H as <-. destruct W as [x W]. set (w' := set_job _ _).
    pose proof (c_pub _ C i x W) as PI.
    assert (NC : ~ In i (w_clients w)).
    { destruct PI as [_ [_ [PI _]]]. destruct (p_stage x).
      - tauto.
      - destruct PI as [_ [PI _]]. congruence.
      - destruct PI as [_ [PI _]]. congruence.
      - destruct PI as [_ [PI _]]. congruence.
      - tauto.
      - destruct PI as [PI1 PI2]. apply PI2. now apply PI1. }
    assert (SF : forall k, k <> i -> same_for w w' k).
    { intros k N. unfold same_for, w'. cbn. rewrite E, get_del_neq by exact N. split; [tauto|]. split; [reflexivity|].
      split; [split; congruence|]. split; [split; [intros X; destruct (about_addr _ _ X)|intros X; destruct (about_none _ X)]|]. intros [? [? X]]. discriminate. }
    constructor.
    + exact (c_dag _ C).
    + intros p y H. pose proof (c_pub _ C p y H) as P. destruct (dec p i) as [->|N].
      * destruct P as [P1 [P2 [P3 _]]]. unfold pub_ok, w'. cbn. rewrite get_del_eq.
        split; [exact P1|]. split; [exact P2|]. rewrite G, E in P3. split; [|split; [now split|intros X; destruct (about_addr _ _ X)]].
        destruct (p_stage y).
        -- destruct P3 as [P3 [P4 _]]. auto.
        -- destruct P3 as [_ [P3 _]]. discriminate.
        -- destruct P3 as [_ [P3 _]]. discriminate.
        -- destruct P3 as [_ [P3 _]]. discriminate.
        -- destruct P3 as [_ [_ [P3 _]]]. discriminate.
        -- split; [discriminate|]. intros _. split; [exact NC|apply about_addr].
      * eapply pub_frame; [exact P|cbn; lia|exact (proj1 (proj2 P))|now apply SF].
    + intros s y H. pose proof (c_sub _ C s y H) as P. destruct (dec s i) as [->|N].
      * cbn in H. rewrite (proj1 (proj2 PI)) in H. discriminate.
      * eapply sub_frame; [exact P|cbn; lia|now apply SF].
    + unfold job_ok, w'. cbn. eauto.
    + intros k r' H. cbn in H. rewrite get_del in H. destruct (dec k i); [discriminate|]. exact (c_wait _ C k r' H).
    + exact (c_nodup _ C).
    + exact (c_client _ C).
    + exact (c_answer _ C).
  - destruct W as [x W]. change (w_subs (set_waiting _ w)) with (w_subs w) in H. rewrite W in H. injection H as <-.
    pose proof (c_sub _ C i x W) as SI. destruct SI as [S1 [S2 S3]]. destruct (S3 G) as [NC IB].
    set (y := mkSub _ _ _ _ _ _ _ _). set (w' := set_job _ _).
    assert (SF : forall k, k <> i -> same_for w w' k).
    { intros k N. unfold same_for, w'. cbn. rewrite E, get_del_neq, in_app_iff by exact N. cbn. split; [intuition congruence|]. split; [reflexivity|].
      split; [split; congruence|]. split; [rewrite about_notify; split; [discriminate|intros X; destruct (about_none _ X)]|]. intros [? [? X]]. discriminate. }
    constructor.
    + exact (c_dag _ C).
    + intros p z H. cbn in H. pose proof (c_pub _ C p z H) as P. assert (N : p <> i) by (intros ->; destruct P as [_ [P _]]; congruence).
      eapply pub_frame; [exact P|cbn; lia| |now apply SF]. cbn. rewrite get_put_neq by exact N. exact (proj1 (proj2 P)).
    + intros s z H. cbn in H. rewrite get_put in H. destruct (dec s i) as [->|N].
      * injection H as <-. unfold sub_ok, w'. cbn. rewrite get_del_eq. split; [exact S1|]. split; [|discriminate].
        destruct (s_stage x); auto; (split; [reflexivity|]; split; [apply in_or_app; right; now left|]; intros _; right; eauto).
      * eapply sub_frame; [exact (c_sub _ C s z H)|cbn; lia|now apply SF].
    + unfold job_ok, w'. cbn. rewrite get_del_eq, get_put_eq. split; [repeat constructor; auto|]. split; [lia|]. split; [|split; [discriminate|eauto 10]].
      intros s [<-|[]]. rewrite get_del_eq, get_put_eq. eauto.
    + intros k r' H. cbn in H. rewrite get_del in H. destruct (dec k i) as [|N]; [discriminate|]. destruct (c_wait _ C k r' H) as [A B]. split; [exact A|].
      cbn. destruct r'; rewrite ?get_put_neq by exact N; exact B.
    + cbn. apply NoDup_app_one; [exact (c_nodup _ C)|exact NC].
    + intros k H. cbn in H |- *. apply in_app_or in H as [H|[<-|[]]].
      * destruct (c_client _ C k H) as [A [B|[z B]]]; (split; [exact A|]); [now left|]. right. rewrite get_put. destruct (dec k i); eauto.
      * split; [exact LI|]. right. rewrite get_put_eq. eauto.
    + exact (c_answer _ C).
  - cbn [w_dag set_waiting] in H. destruct (add_edge f t None (w_dag w)) as [d [| |]] eqn:AE; injection H as <-; pose proof (DInv_added _ _ _ _ _ (c_dag _ C) AE) as D.
    + eapply (Ctl_taken w i _ d AComplete _ C E G I D). right. exists t. reflexivity.
    + rewrite <- set_job_same by exact E. eapply (Ctl_taken w i _ d AComplete None C E G I D). now left.
    + rewrite <- set_job_same by exact E. eapply (Ctl_taken w i _ d ACyclic None C E G I D). now left.
  - cbn [w_dag set_waiting] in H. destruct (remove_edge f t None (w_dag w)) as [d [|]] eqn:AE; injection H as <-; pose proof (DInv_removed _ _ _ _ _ (c_dag _ C) AE) as D.
    + eapply (Ctl_taken w i _ d AComplete _ C E G I D). right. exists t. reflexivity.
    + rewrite <- set_job_same by exact E. eapply (Ctl_taken w i _ d AComplete None C E G I D). now left.
  - injection H as <-. rewrite <- set_job_same by exact E. exact (Ctl_taken w i _ (w_dag w) AGraph None C E G I (c_dag _ C) (or_introl eq_refl)).
Qed.

Lemma Ctl_register w p w' : Ctl w -> step w (Register p) = Some w' -> Ctl w'.
Proof.
  intros C H. cbn [step] in H. destruct (get p (w_pubs w)) as [[t g b]|] eqn:G; [|discriminate]. destruct b; [|discriminate].
  destruct (w_job w) as [[p'|c todo cur]|] eqn:E; try discriminate. destruct (dec p p') as [<-|]; [|discriminate]. injection H as <-.
  pose proof (c_pub _ C p _ G) as PI. destruct PI as [P1 [P2 [P3 [P4 P5]]]]. destruct (P4 E) as [PW PC].
  set (w1 := set_clients _ w). set (w' := set_job _ w1).
  assert (B1 : forall i, In i (w_clients w1) -> i < w_next w1).
  { intros i H. cbn in H. apply in_app_or in H as [H|[<-|[]]]; [exact (proj1 (c_client _ C i H))|exact P1]. }
  assert (N1 : NoDup (w_clients w1)) by (apply NoDup_app_one; [exact (c_nodup _ C)|exact PC]).
  assert (SF : forall k, k <> p -> same_for w w' k).
  { intros k N. unfold same_for, w'. cbn. rewrite E, in_app_iff. cbn. split; [intuition congruence|]. split; [reflexivity|].
    split; [split; congruence|]. split; [rewrite about_notify; split; [congruence|intros X; destruct (about_addr _ _ X)]|]. intros [? [? X]]. discriminate. }
  constructor.
  - exact (c_dag _ C).
  - intros q x H. cbn in H. destruct (dec q p) as [->|N].
    + rewrite G in H. injection H as <-. unfold pub_ok, w'. cbn. cbn in P3. rewrite E in P3.
      assert (IC : In p (w_clients w ++ [p])) by (apply in_or_app; right; now left).
      assert (AB : about (Some (JNotify (ForPub p) (downstream_subs t w1) None)) p) by now apply about_notify.
      split; [exact P1|]. split; [exact P2|]. split; [|split; [discriminate|auto]].
      destruct g.
      * destruct P3 as [P3 _]. discriminate.
      * split; [reflexivity|]. split; [exact PW|]. right. auto.
      * destruct P3 as [_ [_ [P3 _]]]. contradiction.
      * destruct P3 as [_ [_ [P3 _]]]. contradiction.
      * destruct P3 as [P3 _]. discriminate.
      * split; [congruence|discriminate].
    + pose proof (c_pub _ C q x H) as P. eapply pub_frame; [exact P|cbn; lia|exact (proj1 (proj2 P))|now apply SF].
  - intros s x H. cbn in H. assert (N : s <> p) by congruence. eapply sub_frame; [exact (c_sub _ C s x H)|cbn; lia|now apply SF].
  - unfold job_ok. change (w_job w') with (Some (JNotify (ForPub p) (downstream_subs t w1) None)). cbn iota.
    destruct (downstream_subs_fine t w1 N1 B1) as [A [B D']]. split; [exact A|]. split; [exact B|]. split; [|split; [discriminate|exists (mkPub t g true); auto]].
    intros s H. destruct (D' s H) as [X Y]. split; [|exact Y]. cbn. apply (client_not_waiting w s C); [|exact Y]. cbn in X.
    apply in_app_or in X as [X|[<-|[]]]; [exact X|]. destruct Y as [y Y]. cbn in Y. congruence.
  - exact (c_wait _ C).
  - exact N1.
  - intros i H. split; [exact (B1 i H)|]. cbn in H. apply in_app_or in H as [H|[<-|[]]]; [exact (proj2 (c_client _ C i H))|]. left. cbn. eauto.
  - exact (c_answer _ C).
Qed.

Lemma Ctl_pub_gone w p w' : Ctl w -> step w (PubGone p) = Some w' -> Ctl w'.
Proof.
  intros C H. cbn [step] in H. destruct (get p (w_pubs w)) as [[t g b]|] eqn:G; [|discriminate]. destruct g; try discriminate.
  pose proof (c_pub _ C p _ G) as PI. destruct PI as [P1 [P2 [P3 [P4 P5]]]]. cbn in P3.
  destruct (mem p (w_clients w)) eqn:M.
  - injection H as <-. apply Ctl_unclient; [exact C| |].
    + intros q x H ->. rewrite G in H. now injection H as <-.
    + intros s x H ->. congruence.
  - destruct (w_job w) as [[p'|]|] eqn:E; try discriminate. destruct (dec p p') as [<-|]; [|discriminate]. destruct b; [discriminate|]. injection H as <-.
    destruct (P4 eq_refl) as [PW PC].
    assert (SF : forall k, k <> p -> same_for w (set_job None w) k).
    { intros k N. unfold same_for. cbn. rewrite E. split; [tauto|]. split; [reflexivity|]. split; [split; congruence|].
      split; [split; [intros X; destruct (about_none _ X)|intros X; destruct (about_addr _ _ X)]|]. intros [? [? X]]. discriminate. }
    constructor.
    + exact (c_dag _ C).
    + intros q x H. cbn in H. destruct (dec q p) as [->|N].
      * rewrite G in H. injection H as <-. unfold pub_ok. cbn. split; [exact P1|]. split; [exact P2|].
        split; [|split; [discriminate|intros X; destruct (about_none _ X)]]. split; [congruence|]. intros _. split; [exact PC|apply about_none].
      * pose proof (c_pub _ C q x H) as P. eapply pub_frame; [exact P|cbn; lia|exact (proj1 (proj2 P))|now apply SF].
    + intros s x H. cbn in H. assert (N : s <> p) by congruence. eapply sub_frame; [exact (c_sub _ C s x H)|cbn; lia|now apply SF].
    + exact I.
    + exact (c_wait _ C).
    + exact (c_nodup _ C).
    + exact (c_client _ C).
    + exact (c_answer _ C).
Qed.

Lemma Ctl_finish w w' : Ctl w -> step w Finish = Some w' -> Ctl w'.
Proof.
  intros C H. cbn [step] in H. destruct (w_job w) as [[p'|c todo cur]|] eqn:E; try discriminate.
  destruct todo; [|discriminate]. destruct cur; [discriminate|].
  pose proof (c_job _ C) as J. unfold job_ok in J. rewrite E in J. destruct J as [_ [_ [_ [_ J]]]].
  (* the state with the job gone: all but the one it was for *)
  assert (SF : forall k, c <> ForPub k -> c <> ForSub k -> same_for w (set_job None w) k).
  { intros k N1 N2. unfold same_for. cbn. rewrite E. split; [tauto|]. split; [reflexivity|]. split; [split; discriminate|].
    split; [rewrite about_notify; split; [intros X; destruct (about_none _ X)|contradiction]|]. intros [? [? X]]. congruence. }
  assert (REST : forall u,
      w_dag u = w_dag w -> w_next u = w_next w -> w_clients u = w_clients w -> w_waiting u = w_waiting w -> w_job u = None -> w_answers u = w_answers w ->
      (forall p x, get p (w_pubs u) = Some x -> pub_ok u p x) -> (forall s x, get s (w_subs u) = Some x -> sub_ok u s x) ->
      (forall p, (exists x, get p (w_pubs w) = Some x) <-> exists x, get p (w_pubs u) = Some x) ->
      (forall s, (exists x, get s (w_subs w) = Some x) <-> exists x, get s (w_subs u) = Some x) -> Ctl u).
  { intros u U1 U2 U3 U4 U5 U6 UP US KP KS. constructor; auto.
    - rewrite U1. exact (c_dag _ C).
    - unfold job_ok. now rewrite U5.
    - intros i r G. rewrite U4 in G. destruct (c_wait _ C i r G) as [A B]. rewrite U2. split; [exact A|]. destruct r; try (now apply KP); try (now apply KS);
        (destruct B as [B1 B2]; split; [destruct (get i (w_pubs u)) eqn:X; [|reflexivity]; destruct (proj2 (KP i)) as [z Z]; [eauto|congruence]
                                       |destruct (get i (w_subs u)) eqn:X; [|reflexivity]; destruct (proj2 (KS i)) as [z Z]; [eauto|congruence]]).
    - rewrite U3. exact (c_nodup _ C).
    - intros i G. rewrite U3 in G. destruct (c_client _ C i G) as [A B]. rewrite U2. split; [exact A|]. destruct B as [B|B]; [left; now apply KP|right; now apply KS].
    - rewrite U6, U2. exact (c_answer _ C). }
  destruct c as [p|s|].
  - destruct J as [x [G SN]]. rewrite G in H. destruct x as [t g b]. cbn in SN. subst b.
    pose proof (c_pub _ C p _ G) as P. destruct P as [P1 [P2 [P3 [P4 P5]]]].
    assert (PW : get p (w_waiting w) = None) by (apply P5; rewrite E; now apply about_notify). cbn in P3. rewrite E in P3.
    assert (OUT : forall u y, w_next u = w_next w -> w_subs u = w_subs w -> w_clients u = w_clients w -> w_waiting u = w_waiting w -> w_job u = None ->
       (y = mkPub t g true /\ g <> PListens \/ y = mkPub t PTold true /\ g = PListens) -> pub_ok u p y).
    { intros u y U1 U2 U3 U4 U5 Y. unfold pub_ok. rewrite U1, U2, U3, U4, U5. split; [exact P1|]. split; [exact P2|].
      split; [|split; [discriminate|auto]].
      destruct Y as [[-> NL]|[-> ->]]; cbn.
      - destruct g; try contradiction.
        + destruct P3 as [P3 _]. discriminate.
        + destruct P3 as [_ [_ [_ P3]]]. destruct P3. now apply about_notify.
        + destruct P3 as [_ [_ [_ P3]]]. destruct P3. now apply about_notify.
        + destruct P3 as [P3 _]. discriminate.
        + split; [congruence|discriminate].
      - destruct P3 as [_ [_ P3]]. split; [reflexivity|]. split; [exact PW|]. split; [|apply about_none]. destruct P3 as [[P3 _]|[_ P3]]; [discriminate|exact P3]. }
    assert (OTH : forall u q y, w_next u = w_next w -> w_subs u = w_subs w -> w_clients u = w_clients w -> w_waiting u = w_waiting w -> w_job u = None -> q <> p ->
       get q (w_pubs w) = Some y -> pub_ok u q y).
    { intros u q y U1 U2 U3 U4 U5 N GQ. pose proof (c_pub _ C q y GQ) as P. eapply pub_frame; [exact P|lia|rewrite U2; exact (proj1 (proj2 P))|].
      destruct (SF q) as [F1 [F2 [F3 [F4 F5]]]]; [congruence|discriminate|]. unfold same_for. rewrite U3, U4, U5. cbn in *. auto. }
    assert (SUB : forall u s y, w_next u = w_next w -> w_clients u = w_clients w -> w_waiting u = w_waiting w -> w_job u = None ->
       get s (w_subs w) = Some y -> sub_ok u s y).
    { intros u s y U1 U3 U4 U5 GQ. pose proof (c_sub _ C s y GQ) as P. eapply sub_frame; [exact P|lia|].
      destruct (SF s) as [F1 [F2 [F3 [F4 F5]]]]; [congruence|discriminate|]. unfold same_for. rewrite U3, U4, U5. cbn in *. auto. }
    destruct (match g with PListens => true | _ => false end) eqn:GL.
    + destruct g; try discriminate. injection H as <-. apply REST; try reflexivity.
      * intros q y H. cbn in H. rewrite get_put in H. destruct (dec q p) as [->|N]; [injection H as <-; apply OUT; auto|apply OTH; auto].
      * intros q y H. apply SUB; auto.
      * intros q. cbn. rewrite get_put. destruct (dec q p) as [->|]; [split; eauto|tauto].
    + assert (H' : w' = set_job None w) by (destruct g; try discriminate GL; now injection H as <-). subst w'. apply REST; try reflexivity.
      * intros q y H'. destruct (dec q p) as [->|N]; [|apply OTH; auto]. cbn in H'. rewrite G in H'. injection H' as <-. apply OUT; auto.
        left. split; [reflexivity|]. intros ->. discriminate.
      * intros q y H'. apply SUB; auto.
  - destruct J as [_ [SW [x G]]]. rewrite G in H. injection H as <-. pose proof (c_sub _ C s x G) as S. apply REST; try reflexivity.
    + intros q y H. assert (N : q <> s) by (intros ->; destruct (c_pub _ C s y H) as [_ [X _]]; congruence).
      pose proof (c_pub _ C q y H) as P. eapply pub_frame; [exact P|cbn; lia| |apply SF; congruence]. cbn. rewrite get_put_neq by exact N. exact (proj1 (proj2 P)).
    + intros q y H. cbn in H. rewrite get_put in H. destruct (dec q s) as [->|N].
      * injection H as <-. destruct S as [S1 [S2 S3]]. unfold sub_ok. cbn. split; [exact S1|]. rewrite SW in *. split; [|discriminate].
        destruct (s_stage x); auto; try (destruct S2; discriminate). destruct S2 as [_ [S2 _]]. split; [reflexivity|]. split; [exact S2|]. intros _. left. apply in_or_app. right. now left.
      * eapply sub_frame; [exact (c_sub _ C q y H)|cbn; lia|apply SF; congruence].
    + intros q. cbn. rewrite get_put. destruct (dec q s) as [->|]; [split; eauto|tauto].
  - injection H as <-. apply REST; try reflexivity.
    + intros q y H. pose proof (c_pub _ C q y H) as P. eapply pub_frame; [exact P|cbn; lia|exact (proj1 (proj2 P))|apply SF; discriminate].
    + intros q y H. eapply sub_frame; [exact (c_sub _ C q y H)|cbn; lia|apply SF; discriminate].
Qed.

Lemma Ctl_step w l w' : Ctl w -> step w l = Some w' -> Ctl w'.
Proof.
  intros C H. destruct l as [t|t|f t|f t| |p|s|p m|p|i|p|p| |s| | |p|s|s p|s p|s|p|s].
  - cbn in H. injection H as <-. exact (Ctl_call_publish w t C).
  - cbn in H. injection H as <-. exact (Ctl_call_subscribe w t C).
  - cbn in H. injection H as <-. now apply Ctl_ask.
  - cbn in H. injection H as <-. now apply Ctl_ask.
  - cbn in H. injection H as <-. now apply Ctl_ask.
  - cbn [step] in H. destruct (get p (w_pubs w)) as [x|] eqn:G; [|discriminate]. injection H as <-.
    pose proof (c_pub _ C p x G) as P. eapply Ctl_put_pub; eauto. unfold pub_ok in *. cbn. destruct P as [P1 [P2 [P3 [P4 P5]]]].
    split; [exact P1|]. split; [exact P2|]. split; [|split; assumption].
    assert (X : get p (w_waiting w) = Some RPub -> p_sent x = false /\ w_job w <> Some (JAddress p)).
    { intros W. destruct (p_stage x); rewrite ?W in P3; intuition congruence. }
    split; [exact X|]. intros SN. rewrite SN in P3.
    assert (Y : ~ In p (w_clients w)) by (destruct (p_stage x); intuition congruence). split; [exact Y|].
    intros A. pose proof (c_job _ C) as J. destruct A as [td [cu A]]. unfold job_ok in J. rewrite A in J.
    destruct J as [_ [_ [_ [_ [z [J1 J2]]]]]]. congruence.
  - cbn [step] in H. destruct (get s (w_subs w)) as [x|] eqn:G; [|discriminate]. injection H as <-.
    pose proof (c_sub _ C s x G) as P. eapply Ctl_put_sub; eauto. unfold sub_ok in *. cbn. tauto.
  - cbn [step] in H. destruct (get p (w_pubs w)) as [[t g b]|]; [|discriminate]. destruct g; try discriminate. injection H as <-. now apply Ctl_send.
  - cbn [step] in H. destruct (get p (w_pubs w)) as [[t g b]|] eqn:G; [|discriminate]. destruct g; try discriminate.
    destruct (w_job w) as [[p'|]|] eqn:E; try discriminate. destruct (dec p p') as [<-|]; [|discriminate]. injection H as <-.
    pose proof (c_pub _ C p _ G) as P. eapply Ctl_put_pub; eauto. unfold pub_ok in *. cbn in *. rewrite E in *.
    destruct P as [P1 [P2 [[P3 [P4 P6]] [P5 P7]]]]. destruct (P5 eq_refl). repeat split; auto.
  - exact (Ctl_take w i w' C H).
  - cbn [step] in H. destruct (get p (w_pubs w)) as [[t g b]|] eqn:G; [|discriminate]. destruct g; try discriminate.
    destruct (w_job w) as [[p'|]|] eqn:E; try discriminate. destruct (dec p p') as [<-|]; [|discriminate]. injection H as <-.
    pose proof (c_pub _ C p _ G) as P. eapply Ctl_put_pub; eauto. unfold pub_ok in *. cbn in *. rewrite E in *.
    destruct P as [P1 [P2 [[P3 [P4 P6]] [P5 P7]]]]. destruct (P5 eq_refl). repeat split; auto.
  - exact (Ctl_register w p w' C H).
  - cbn [step] in H. destruct (w_job w) as [[|c todo cur]|] eqn:E; try discriminate. destruct todo as [|s todo]; [discriminate|]. destruct cur; [discriminate|].
    destruct (get s (w_subs w)) as [x|] eqn:G; [|discriminate]. injection H as <-.
    pose proof (c_job _ C) as J. unfold job_ok in J. rewrite E in J. destruct J as [J1 [J2 [J3 [J4 J5]]]]. inversion J1 as [|? ? N1 N2]; subst.
    pose proof (c_sub _ C s x G) as P.
    set (y := mkSub _ _ _ _ _ _ _ _). 
    assert (C1 : Ctl (set_job (Some (JNotify c todo (Some s))) w)).
    { eapply Ctl_job; eauto; [cbn in J2; lia|intros z Z; now right|intros z Z; injection Z as <-; exact N1]. }
    change (Ctl (put_sub s y (set_job (Some (JNotify c todo (Some s))) w))). apply (Ctl_put_sub _ s x y); [exact C1|exact G|].
    destruct (J3 s (or_introl eq_refl)) as [SW _].
    pose proof (c_sub _ C1 s x G) as P1. unfold sub_ok in *. cbn in *. destruct P1 as [P1 [P2 P3]]. split; [exact P1|]. rewrite SW in *. split; [|discriminate].
    destruct (s_stage x) eqn:ST; auto; [destruct P2; discriminate|].
    destruct P2 as [Q1 [Q2 Q3]]. repeat split; auto. intros R. destruct (Q3 R) as [Q|Q]; [left; apply in_or_app; now left|now right].
  - cbn [step] in H. destruct (get s (w_subs w)) as [[t g r ib k c [|n] got]|] eqn:G; try discriminate. destruct (mem s (w_clients w)); [|discriminate]. injection H as <-.
    apply Ctl_set_sync. eapply Ctl_put_sub; eauto. pose proof (c_sub _ C s _ G) as P. unfold sub_ok in *. cbn in *. destruct P as [P1 [P2 P3]]. split; [exact P1|]. split; [|exact P3].
    destruct g; auto. destruct P2 as [_ [_ [_ [_ P2]]]]. discriminate.
  - cbn [step] in H. destruct (w_job w) as [[|c todo [s|]]|] eqn:E; try discriminate. injection H as <-.
    pose proof (c_job _ C) as J. unfold job_ok in J. rewrite E in J. destruct J as [J1 [J2 _]].
    eapply Ctl_job; eauto; [intros x; auto|discriminate].
  - exact (Ctl_finish w w' C H).
  - cbn [step] in H. destruct (get p (w_pubs w)) as [[t g b]|] eqn:G; [|discriminate]. destruct g; try discriminate. injection H as <-.
    pose proof (c_pub _ C p _ G) as P. eapply Ctl_put_pub; eauto.
  - cbn [step] in H. destruct (get s (w_subs w)) as [[t g r ib k c n got]|] eqn:G; [|discriminate]. destruct g; try discriminate. destruct ib as [|m ib]; [discriminate|].
    destruct k; [discriminate|]. injection H as <-. eapply Ctl_put_sub; eauto. pose proof (c_sub _ C s _ G) as P. unfold sub_ok in *. cbn in *.
    destruct P as [P1 [[P2 [P3 P4]] P5]]. rewrite P2 in *. destruct m; cbn; (split; [exact P1|]; split; [|discriminate]; repeat split; auto; try discriminate).
    intros R. destruct (P4 R) as [[Q|Q]|Q]; [discriminate|now left|now right].
  - cbn [step] in H. destruct (get s (w_subs w)) as [[t g r ib k c n got]|] eqn:G; [|discriminate]. destruct g; try discriminate. destruct k as [[td al]|]; [|discriminate].
    destruct (get p (w_pubs w)); [|discriminate]. destruct (_ && _); [|discriminate]. injection H as <-. eapply Ctl_put_sub; eauto. exact (c_sub _ C s _ G).
  - cbn [step] in H. destruct (get s (w_subs w)) as [[t g r ib k c n got]|] eqn:G; [|discriminate]. destruct g; try discriminate. destruct k as [[td al]|]; [|discriminate].
    destruct (get p (w_pubs w)); [|discriminate]. destruct (_ && _); [|discriminate]. injection H as <-. eapply Ctl_put_sub; eauto.
    pose proof (c_sub _ C s _ G) as P. unfold sub_ok in *. cbn in *. tauto.
  - cbn [step] in H. destruct (get s (w_subs w)) as [[t g r ib k c n got]|] eqn:G; [|discriminate]. destruct g; try discriminate. destruct k as [[[|] al]|]; try discriminate.
    injection H as <-. eapply Ctl_put_sub; eauto. exact (c_sub _ C s _ G).
  - exact (Ctl_pub_gone w p w' C H).
  - cbn [step] in H. destruct (get s (w_subs w)) as [x|] eqn:G; [|discriminate]. destruct (mem s (w_clients w)); [|discriminate].
    destruct (match s_stage x with SDead | SClosed => true | _ => false end) eqn:D; [|discriminate]. injection H as <-. apply Ctl_set_sync, Ctl_unclient; [exact C| |].
    + intros p y H ->. destruct (c_pub _ C s y H) as [_ [Z _]]. congruence.
    + intros z y H ->. rewrite G in H. injection H as <-. destruct (s_stage x); try discriminate; auto.
Qed.
