(* Invariants of QuiesceModel. *)

From Coq Require Import List Arith Bool Lia.
From Verif Require Import Dict QuiesceModel QuiesceSpec.
Import ListNotations.

Lemma upd_eq {A} (f : nat -> A) k v : upd f k v k = v.
Proof. unfold upd. now rewrite Nat.eqb_refl. Qed.
Lemma upd_neq {A} (f : nat -> A) k v x : x <> k -> upd f k v x = f x.
Proof. intros N. unfold upd. destruct (Nat.eqb_spec x k); [contradiction|reflexivity]. Qed.

Definition busy_msg (a : activity) : list nat := match a with Busy (Some m) _ _ => [m] | _ => [] end.
(** The messages task [t] has: the one it handles and those it will take. *)
Definition mine (s : state) (t : nat) : list nat := busy_msg (s_task s t) ++ s_queue s t.

Definition told (o : option (nat * list nat * option nat)) : option nat := match o with Some (_, _, c) => c | None => None end.

Section Proofs.
Context (cfg : config) (PL : pipeline cfg).

Record Base (s : state) : Prop := {
  b_held : forall p m t, In (p, m, t) (s_held s) <-> In t (c_tasks cfg) /\ c_src cfg t = Some p /\ In m (mine s t);
  b_nodup : forall t, NoDup (mine s t);
  b_old : forall t p m, c_src cfg t = Some p -> In m (mine s t) -> m < s_sent s p;
  b_task : forall t m todo w, s_task s t = Busy m todo w -> In t (c_tasks cfg) /\ incl todo (c_outs cfg t) /\ (m = None <-> c_src cfg t = None);
  b_mine : forall t, mine s t <> [] -> In t (c_tasks cfg) /\ c_src cfg t <> None
}.

Lemma Base_same s s' : Base s -> s_held s' = s_held s -> (forall t, mine s' t = mine s t) -> (forall p, s_sent s' p = s_sent s p) ->
  (forall t m todo w, s_task s' t = Busy m todo w -> In t (c_tasks cfg) /\ incl todo (c_outs cfg t) /\ (m = None <-> c_src cfg t = None)) -> Base s'.
Proof.
  intros B H M S T. constructor.
  - intros p m t. rewrite H, M. apply (b_held _ B).
  - intros t. rewrite M. apply (b_nodup _ B).
  - intros t p m E I. rewrite M in I. rewrite S. exact (b_old _ B t p m E I).
  - exact T.
  - intros t. rewrite M. apply (b_mine _ B).
Qed.

Lemma Base_tasks s s' : Base s -> s_held s' = s_held s -> s_sent s' = s_sent s -> s_queue s' = s_queue s -> s_task s' = s_task s -> Base s'.
Proof.
  intros B H S Q T. apply (Base_same s s' B H).
  - intros t. unfold mine. now rewrite Q, T.
  - intros p. now rewrite S.
  - rewrite T. exact (b_task _ B).
Qed.

Lemma in_subs t q : In t (subs cfg q) <-> In t (c_tasks cfg) /\ c_src cfg t = Some q.
Proof.
  unfold subs. rewrite filter_In. destruct (c_src cfg t) as [p|]; [|intuition discriminate]. split; intros [A B]; split; auto.
  - apply Nat.eqb_eq in B. congruence.
  - injection B as ->. apply Nat.eqb_refl.
Qed.

(* Sending a message. *)
Lemma Base_send s q t0 m0 todo : Base s ->
  (exists w, s_task s t0 = Busy m0 (q :: todo) w) ->
  Base (set_task (upd (s_task s) t0 (Busy m0 todo false)) (send cfg q s)).
Proof.
  intros B [w0 E0]. set (s' := set_task _ _).
  assert (ES : forall p, s_sent s' p = if p =? q then S (s_sent s q) else s_sent s p) by (intros p; unfold s', upd; reflexivity).
  assert (EB : forall t, busy_msg (s_task s' t) = busy_msg (s_task s t)).
  { intros t. unfold s', set_task. cbn. unfold upd. destruct (Nat.eqb_spec t t0) as [->|N]; [|reflexivity]. rewrite E0. now destruct m0. }
  assert (EM : forall t, mine s' t = if mem t (subs cfg q) then mine s t ++ [s_sent s q] else mine s t).
  { intros t. unfold mine. rewrite EB. unfold s', set_task. cbn. destruct (mem t (subs cfg q)); [now rewrite app_assoc|reflexivity]. }
  constructor.
  - intros p m t. unfold s' at 1. cbn. rewrite in_app_iff, (b_held _ B), in_map_iff, EM. split.
    + intros [(A & C & D)|[x [Ex Ix]]].
      * split; [exact A|]. split; [exact C|]. destruct (mem t (subs cfg q)); [apply in_or_app; now left|exact D].
      * injection Ex as <- <- <-. pose proof Ix as Iy. apply in_subs in Ix as [A C]. split; [exact A|]. split; [exact C|].
        apply mem_In in Iy. rewrite Iy. apply in_or_app. right. now left.
    + intros (A & C & D). destruct (mem t (subs cfg q)) eqn:Mt; [|left; auto]. apply in_app_or in D as [D|[<-|[]]]; [left; auto|].
      right. exists t. apply mem_In in Mt. split; [|exact Mt]. apply in_subs in Mt as [_ C']. rewrite C in C'. injection C' as ->. reflexivity.
  - intros t. rewrite EM. destruct (mem t (subs cfg q)) eqn:Mt; [|apply (b_nodup _ B)]. apply NoDup_app_one; [apply (b_nodup _ B)|].
    intros I. apply mem_In, in_subs in Mt as [_ C]. pose proof (b_old _ B t q _ C I). lia.
  - intros t p m C I. rewrite EM in I. rewrite ES. destruct (mem t (subs cfg q)) eqn:Mt.
    + apply in_app_or in I as [I|[<-|[]]].
      * pose proof (b_old _ B t p m C I). destruct (Nat.eqb_spec p q) as [->|]; lia.
      * apply mem_In, in_subs in Mt as [_ C']. rewrite C in C'. injection C' as ->. rewrite Nat.eqb_refl. lia.
    + pose proof (b_old _ B t p m C I). destruct (Nat.eqb_spec p q) as [->|]; lia.
  - intros t m td w E. unfold s', set_task in E. cbn in E. unfold upd in E. destruct (Nat.eqb_spec t t0) as [->|N]; [|exact (b_task _ B t m td w E)].
    injection E as <- <- <-. destruct (b_task _ B _ _ _ _ E0) as (A & C & D). split; [exact A|]. split; [|exact D]. intros x I. apply C. now right.
  - intros t NE. rewrite EM in NE. destruct (mem t (subs cfg q)) eqn:Mt; [|exact (b_mine _ B t NE)]. apply mem_In, in_subs in Mt as [A C]. split; [exact A|congruence].
Qed.

Lemma same_spec p m t h : same p m t h = true <-> h = (p, m, t).
Proof.
  destruct h as [[p' m'] t']. unfold same. rewrite !andb_true_iff, !Nat.eqb_eq. split; [intros [[-> ->] ->]; reflexivity|intros [= -> -> ->]; auto].
Qed.

Lemma Base_done s t0 m0 p0 w0 : Base s -> s_task s t0 = Busy (Some m0) [] w0 -> c_src cfg t0 = Some p0 ->
  forall d, Base (set_task (upd (s_task s) t0 Idle) (set_drain d (set_held (filter (fun h => negb (same p0 m0 t0 h)) (s_held s)) s))).
Proof.
  intros B E0 C0 d. set (s' := set_task _ _).
  assert (EM : forall t, t <> t0 -> mine s' t = mine s t) by (intros t N; unfold mine, s', set_task; cbn; now rewrite upd_neq).
  assert (EM0 : mine s' t0 = s_queue s t0) by (unfold mine, s', set_task; cbn; now rewrite upd_eq).
  assert (EO : mine s t0 = m0 :: s_queue s t0) by (unfold mine; now rewrite E0).
  constructor.
  - intros p m t. unfold s' at 1. cbn. rewrite filter_In, (b_held _ B), negb_true_iff. split.
    + intros [(A & C & D) F]. split; [exact A|]. split; [exact C|]. destruct (Nat.eq_dec t t0) as [->|N]; [|now rewrite EM].
      rewrite EM0. rewrite EO in D. destruct D as [<-|D]; [|exact D]. exfalso. rewrite C0 in C. injection C as <-.
      assert (X : same p0 m0 t0 (p0, m0, t0) = true) by now apply same_spec. congruence.
    + intros (A & C & D). assert (D' : In m (mine s t) /\ (p, m, t) <> (p0, m0, t0)).
      { destruct (Nat.eq_dec t t0) as [->|N]; [|split; [now rewrite EM in D|congruence]]. rewrite EM0 in D. rewrite EO. split; [now right|].
        intros [= -> ->]. pose proof (b_nodup _ B t0) as ND. rewrite EO in ND. inversion ND. contradiction. }
      destruct D' as [D' NE]. split; [auto|]. destruct (same p0 m0 t0 (p, m, t)) eqn:S; [|reflexivity]. apply same_spec in S. contradiction.
  - intros t. destruct (Nat.eq_dec t t0) as [->|N]; [|rewrite EM by exact N; apply (b_nodup _ B)]. rewrite EM0. pose proof (b_nodup _ B t0) as ND. rewrite EO in ND. now inversion ND.
  - intros t p m C I. apply (b_old _ B t p m C). destruct (Nat.eq_dec t t0) as [->|N]; [|now rewrite EM in I]. rewrite EM0 in I. rewrite EO. now right.
  - intros t m td w E. unfold s', set_task in E. cbn in E. unfold upd in E. destruct (Nat.eqb_spec t t0) as [->|N]; [discriminate|exact (b_task _ B t m td w E)].
  - intros t NE. apply (b_mine _ B). destruct (Nat.eq_dec t t0) as [->|N]; [|now rewrite EM in NE]. now rewrite EO.
Qed.

Lemma Base_step s l s' : Base s -> step cfg s l = Some s' -> Base s'.
Proof.
  intros B H. destruct l; cbn in H.
  - destruct (s_task s t) eqn:E; [|discriminate]. destruct (c_src cfg t) as [|] eqn:C; [discriminate|]. destruct (mem t (c_tasks cfg)) eqn:M; [|discriminate]. injection H as <-. apply mem_In in M.
    apply (Base_same s _ B); [reflexivity| |reflexivity|].
    + intros u. unfold mine. cbn. unfold upd. destruct (Nat.eqb_spec u t) as [->|N]; [now rewrite E|reflexivity].
    + intros u m todo w. cbn. unfold upd. destruct (Nat.eqb_spec u t) as [->|N]; [|apply (b_task _ B)]. intros [= <- <- <-]. split; [exact M|]. split; [apply incl_refl|]. rewrite C. tauto.
  - injection H as <-. apply (Base_tasks s _ B); reflexivity.
  - injection H as <-. apply (Base_tasks s _ B); reflexivity.
  - injection H as <-. apply (Base_tasks s _ B); reflexivity.
  - destruct (s_task s t) eqn:E; [|discriminate]. destruct (s_queue s t) as [|m r] eqn:Q; [discriminate|]. injection H as <-.
    assert (NE : mine s t <> []) by (unfold mine; rewrite E, Q; discriminate). destruct (b_mine _ B t NE) as [IT SN].
    apply (Base_same s _ B); [reflexivity| |reflexivity|].
    + intros u. unfold mine. cbn. unfold upd. destruct (Nat.eqb_spec u t) as [->|N]; [now rewrite E, Q|reflexivity].
    + intros u m' todo w. cbn. unfold upd. destruct (Nat.eqb_spec u t) as [->|N]; [|apply (b_task _ B)]. intros [= <- <- <-]. split; [exact IT|]. split; [apply incl_refl|]. split; [discriminate|contradiction].
  - destruct (s_task s t) as [|m [|q todo] [|]] eqn:E; try discriminate. destruct (s_run s q); [|discriminate]. destruct (available cfg q s); injection H as <-.
    + apply Base_send; eauto.
    + apply (Base_same s _ B); [reflexivity| |reflexivity|].
      * intros u. unfold mine. cbn. unfold upd. destruct (Nat.eqb_spec u t) as [->|N]; [now rewrite E|reflexivity].
      * intros u m' td w. cbn. unfold upd. destruct (Nat.eqb_spec u t) as [->|N]; [|apply (b_task _ B)]. intros [= <- <- <-]. exact (b_task _ B _ _ _ _ E).
  - destruct (s_task s t) as [|m [|q todo] [|]] eqn:E; try discriminate. destruct (available cfg q s); [|discriminate]. injection H as <-. apply Base_send; eauto.
  - destruct (s_task s t) as [|[m|] [|q todo] w] eqn:E; try discriminate.
    + destruct (c_src cfg t) as [p|] eqn:C; [|discriminate]. injection H as <-. exact (Base_done s t m p w B E C _).
    + injection H as <-. apply (Base_same s _ B); [reflexivity| |reflexivity|].
      * intros u. unfold mine. cbn. unfold upd. destruct (Nat.eqb_spec u t) as [->|N]; [now rewrite E|reflexivity].
      * intros u m' td w'. cbn. unfold upd. destruct (Nat.eqb_spec u t) as [->|N]; [discriminate|apply (b_task _ B)].
  - destruct (s_lock s); [discriminate|]. destruct (get i (s_calls s)) as [[]|]; [| | |discriminate]; injection H as <-; apply (Base_tasks s _ B); reflexivity.
  - destruct (s_lock s) as [[[i [|p rest]] [c|]]|]; try discriminate. injection H as <-. apply (Base_tasks s _ B); reflexivity.
  - destruct (s_lock s) as [[[i [|p rest]] [c|]]|]; try discriminate. injection H as <-. apply (Base_tasks s _ B); reflexivity.
  - destruct (s_drain s p); [|discriminate|discriminate]. destruct (s_inbox s p) as [|[] r]; [discriminate| | |]; injection H as <-; apply (Base_tasks s _ B); reflexivity.
  - destruct (s_drain s p); [discriminate|discriminate|]. destruct (s_lock s) as [[[i rest] [q|]]|]; [destruct (q =? p)| |]; injection H as <-; apply (Base_tasks s _ B); reflexivity.
Qed.

Lemma Base_init : Base init.
Proof.
  constructor; unfold mine; cbn.
  - intros p m t. tauto.
  - intros t. constructor.
  - intros t p m _ [].
  - discriminate.
  - congruence.
Qed.

(* ---- the protocol of sync() ---- *)

(** Where SYNC is: nowhere, unless the server waits for that publisher; then it is the last thing in
    its inbox, or the publisher drains and its inbox is empty. *)
Definition proto (s : state) (p : nat) : Prop :=
  if match told (s_lock s) with Some q => q =? p | None => false end
  then (s_drain s p = NotSyncing /\ exists l, s_inbox s p = l ++ [SYNC] /\ ~ In SYNC l) \/ (s_drain s p <> NotSyncing /\ s_inbox s p = [])
  else s_drain s p = NotSyncing /\ ~ In SYNC (s_inbox s p).

Definition cur_list (c : option nat) : list nat := match c with Some p => [p] | None => [] end.

Record Proto (s : state) : Prop := {
  t_pub : forall p, proto s p;
  t_lock : forall i rest cur, s_lock s = Some (i, rest, cur) -> exists finished, c_pubs cfg = finished ++ cur_list cur ++ rest
}.

Lemma Proto_same s s' : Proto s -> s_lock s' = s_lock s -> (forall p, s_drain s' p = NotSyncing <-> s_drain s p = NotSyncing) -> (forall p, s_inbox s' p = s_inbox s p) -> Proto s'.
Proof.
  intros P L D I. constructor.
  - intros p. pose proof (t_pub _ P p) as Q. unfold proto in *. rewrite L, I. pose proof (D p) as Dp.
    destruct (match told (s_lock s) with Some q => q =? p | None => false end); tauto.
  - rewrite L. exact (t_lock _ P).
Qed.

Lemma last_split {A} (l : list A) x y r : l ++ [x] = y :: r -> (l = [] /\ x = y /\ r = []) \/ exists l', l = y :: l' /\ r = l' ++ [x].
Proof. destruct l as [|a l]; cbn; intros [= -> <-]; [left; auto|right; exists l; auto]. Qed.

Lemma Proto_step s l s' : Proto s -> step cfg s l = Some s' -> Proto s'.
Proof.
  intros P H. destruct l; cbn in H.
  - destruct (s_task s t); [|discriminate]. destruct (c_src cfg t); [discriminate|]. destruct (mem t (c_tasks cfg)); [|discriminate]. injection H as <-. now apply (Proto_same s).
  - injection H as <-. now apply (Proto_same s).
  - injection H as <-. now apply (Proto_same s).
  - injection H as <-. now apply (Proto_same s).
  - destruct (s_task s t); [|discriminate]. destruct (s_queue s t); [discriminate|]. injection H as <-. now apply (Proto_same s).
  - destruct (s_task s t) as [|m [|q todo] [|]]; try discriminate. destruct (s_run s q); [|discriminate]. destruct (available cfg q s); injection H as <-; now apply (Proto_same s).
  - destruct (s_task s t) as [|m [|q todo] [|]]; try discriminate. destruct (available cfg q s); [|discriminate]. injection H as <-. now apply (Proto_same s).
  - destruct (s_task s t) as [|[m|] [|q todo] w]; try discriminate.
    + destruct (c_src cfg t) as [p|]; [|discriminate]. injection H as <-. apply (Proto_same s); [exact P|reflexivity| |reflexivity].
      intros q. cbn. unfold upd. destruct (Nat.eqb_spec q p) as [->|]; [|tauto]. unfold wake_sync. destruct (s_drain s p); [tauto| |tauto].
      destruct (any_held _ _); split; discriminate.
    + injection H as <-. now apply (Proto_same s).
  - destruct (s_lock s) eqn:L; [discriminate|]. destruct (get i (s_calls s)) as [c|]; [|discriminate].
    assert (ND : forall p, s_drain s p = NotSyncing /\ ~ In SYNC (s_inbox s p)) by (intros p; pose proof (t_pub _ P p) as Q; unfold proto in Q; now rewrite L in Q).
    assert (TA : c <> SYNC -> Proto (tell_all cfg c (set_calls (del i (s_calls s)) s))).
    { intros NC. constructor.
      - intros p. unfold proto. cbn. rewrite L. cbn. destruct (ND p) as [A B]. split; [exact A|]. destruct (mem p (c_pubs cfg)); [|exact B].
        intros I. apply in_app_or in I as [I|[I|[]]]; [exact (B I)|congruence].
      - cbn. rewrite L. discriminate. }
    destruct c; injection H as <-; [apply TA; discriminate|apply TA; discriminate|]. constructor.
    + intros p. unfold proto. cbn. apply ND.
    + cbn. intros i' rest cur [= <- <- <-]. exists []. reflexivity.
  - destruct (s_lock s) as [[[i [|p rest]] [c|]]|] eqn:L; try discriminate. injection H as <-.
    destruct (t_lock _ P i (p :: rest) None L) as [fin F]. constructor.
    + intros q. unfold proto. cbn. pose proof (t_pub _ P q) as Q. unfold proto in Q. rewrite L in Q. cbn in Q. destruct Q as [A B].
      rewrite (Nat.eqb_sym p q). unfold upd. destruct (Nat.eqb_spec q p) as [->|N].
      * left. split; [exact A|]. exists (s_inbox s p). auto.
      * auto.
    + cbn. intros i' rest' cur' [= <- <- <-]. exists fin. exact F.
  - destruct (s_lock s) as [[[i [|p rest]] [c|]]|] eqn:L; try discriminate. injection H as <-. constructor.
    + intros q. unfold proto. cbn. pose proof (t_pub _ P q) as Q. unfold proto in Q. now rewrite L in Q.
    + discriminate.
  - destruct (s_drain s p) eqn:D; [|discriminate|discriminate]. destruct (s_inbox s p) as [|c r] eqn:I; [discriminate|].
    pose proof (t_pub _ P p) as Q. unfold proto in Q. rewrite D, I in Q.
    assert (X : forall s1 d, s_lock s1 = s_lock s -> (forall q, s_drain s1 q = if q =? p then d else s_drain s q) -> (forall q, s_inbox s1 q = if q =? p then r else s_inbox s q) ->
                 (c = SYNC /\ d <> NotSyncing \/ c <> SYNC /\ d = NotSyncing) -> Proto s1).
    { intros s1 d E1 E2 E3 E4. constructor; [|rewrite E1; exact (t_lock _ P)]. intros q. unfold proto. rewrite E1, E2, E3.
      destruct (Nat.eqb_spec q p) as [->|N]; [|exact (t_pub _ P q)]. destruct (told (s_lock s)) as [u|]; [destruct (u =? p)|].
      - destruct Q as [[_ [l [El Nl]]]|[Q _]]; [|congruence]. symmetry in El. apply last_split in El as [(-> & <- & ->)|[l' [-> ->]]].
        + right. destruct E4 as [[_ E4]|[E4 _]]; [auto|congruence].
        + left. destruct E4 as [[-> _]|[_ ->]]; [destruct Nl; now left|]. split; [reflexivity|]. exists l'. split; [reflexivity|]. intros Z. apply Nl. now right.
      - destruct Q as [_ Q]. destruct E4 as [[-> _]|[_ ->]]; [destruct Q; now left|]. split; [reflexivity|]. intros Z. apply Q. now right.
      - destruct Q as [_ Q]. destruct E4 as [[-> _]|[_ ->]]; [destruct Q; now left|]. split; [reflexivity|]. intros Z. apply Q. now right. }
    destruct c; injection H as <-.
    + apply (X _ NotSyncing); [reflexivity| |reflexivity|right; split; [discriminate|reflexivity]]. intros q. cbn. destruct (Nat.eqb_spec q p) as [->|]; auto.
    + apply (X _ NotSyncing); [reflexivity| |reflexivity|right; split; [discriminate|reflexivity]]. intros q. cbn. destruct (Nat.eqb_spec q p) as [->|]; auto.
    + eapply X; [reflexivity|reflexivity|reflexivity|]. left. split; [reflexivity|]. unfold wake_sync. destruct (any_held _ _); discriminate.
  - destruct (s_drain s p) eqn:D; [discriminate|discriminate|].
    pose proof (t_pub _ P p) as Q. unfold proto in Q. rewrite D in Q.
    destruct (s_lock s) as [[[i rest] [q|]]|] eqn:L; cbn in Q; [|destruct Q; discriminate|destruct Q; discriminate].
    destruct (Nat.eqb_spec q p) as [->|N]; [|destruct Q; discriminate]. injection H as <-. destruct Q as [[Q _]|[_ Q]]; [discriminate|].
    destruct (t_lock _ P i rest (Some p) L) as [fin F]. constructor.
    + intros u. unfold proto. cbn. unfold upd. destruct (Nat.eqb_spec u p) as [->|NU]; [rewrite Q; auto|].
      pose proof (t_pub _ P u) as Y. unfold proto in Y. rewrite L in Y. cbn in Y. destruct (Nat.eqb_spec p u); [congruence|exact Y].
    + cbn. intros i' rest' cur' [= <- <- <-]. exists (fin ++ [p]). rewrite <- app_assoc. exact F.
Qed.

Lemma Proto_init : Proto init.
Proof. constructor; [intros p; cbn; auto|discriminate]. Qed.

(* ---- a publisher in sync() waits for something ---- *)

Lemma any_held_In p h : any_held p h = true <-> exists m t, In (p, m, t) h.
Proof.
  unfold any_held. rewrite existsb_exists. split.
  - intros [[[p' m] t] [I E]]. apply Nat.eqb_eq in E. cbn in E. subst p'. eauto.
  - intros (m & t & I). exists (p, m, t). split; [exact I|apply Nat.eqb_refl].
Qed.

(** What a step does to the leases. *)
Lemma held_step s l s' : step cfg s l = Some s' ->
  (s_held s' = s_held s) \/
  (exists t m todo q w, s_task s t = Busy m (q :: todo) w /\ (s_run s q = true \/ w = true) /\ (l = Publish t \/ l = Wake t) /\ s_held s' = s_held s ++ map (fun u => (q, s_sent s q, u)) (subs cfg q)) \/
  (exists t m p w, l = Done t /\ s_task s t = Busy (Some m) [] w /\ c_src cfg t = Some p /\ s_held s' = filter (fun h => negb (same p m t h)) (s_held s)).
Proof.
  intros H. destruct l; cbn in H; try (injection H as <-; left; reflexivity).
  - destruct (s_task s t); [|discriminate]. destruct (c_src cfg t); [discriminate|]. destruct (mem t (c_tasks cfg)); [|discriminate]. injection H as <-. now left.
  - destruct (s_task s t); [|discriminate]. destruct (s_queue s t); [discriminate|]. injection H as <-. now left.
  - destruct (s_task s t) as [|m [|q todo] [|]] eqn:E; try discriminate. destruct (s_run s q) eqn:R; [|discriminate]. destruct (available cfg q s); injection H as <-; [|now left].
    right. left. exists t, m, todo, q, false. split; [exact E|]. split; [now left|]. split; [now left|reflexivity].
  - destruct (s_task s t) as [|m [|q todo] [|]] eqn:E; try discriminate. destruct (available cfg q s); [|discriminate]. injection H as <-.
    right. left. exists t, m, todo, q, true. split; [exact E|]. split; [now right|]. split; [now right|reflexivity].
  - destruct (s_task s t) as [|[m|] [|q todo] w] eqn:E; try discriminate; [destruct (c_src cfg t) as [p|] eqn:C; [|discriminate]|]; injection H as <-; [|now left].
    right. right. exists t, m, p, w. repeat (split; [assumption || reflexivity|]). reflexivity.
  - destruct (s_lock s); [discriminate|]. destruct (get i (s_calls s)) as [[]|]; [| | |discriminate]; injection H as <-; now left.
  - destruct (s_lock s) as [[[i [|p rest]] [c|]]|]; try discriminate. injection H as <-. now left.
  - destruct (s_lock s) as [[[i [|p rest]] [c|]]|]; try discriminate. injection H as <-. now left.
  - destruct (s_drain s p); [|discriminate|discriminate]. destruct (s_inbox s p) as [|[] r]; [discriminate| | |]; injection H as <-; now left.
  - destruct (s_drain s p); [discriminate|discriminate|]. destruct (s_lock s) as [[[i rest] [q|]]|]; [destruct (q =? p)| |]; injection H as <-; now left.
Qed.

Definition Waits (s : state) : Prop := forall p, s_drain s p = Waiting -> in_flight s p.

Lemma drain_step s l s' p : step cfg s l = Some s' -> s_drain s' p = Waiting ->
  (s_drain s p = Waiting /\ (forall t, l = Done t -> c_src cfg t = Some p -> (exists m w, s_task s t = Busy (Some m) [] w) -> any_held p (s_held s') = true)) \/ any_held p (s_held s') = true.
Proof.
  intros H. destruct l; cbn in H; try (injection H as <-; intros D; left; split; [exact D|discriminate]).
  - destruct (s_task s t); [|discriminate]. destruct (c_src cfg t); [discriminate|]. destruct (mem t (c_tasks cfg)); [|discriminate]. injection H as <-. intros D. left. split; [exact D|discriminate].
  - destruct (s_task s t); [|discriminate]. destruct (s_queue s t); [discriminate|]. injection H as <-. intros D. left. split; [exact D|discriminate].
  - destruct (s_task s t) as [|m [|q todo] [|]] eqn:E; try discriminate. destruct (s_run s q); [|discriminate]. destruct (available cfg q s); injection H as <-; intros D; left; (split; [exact D|discriminate]).
  - destruct (s_task s t) as [|m [|q todo] [|]] eqn:E; try discriminate. destruct (available cfg q s); [|discriminate]. injection H as <-. intros D; left; (split; [exact D|discriminate]).
  - destruct (s_task s t) as [|[m|] [|q todo] w] eqn:E; try discriminate.
    + destruct (c_src cfg t) as [p0|] eqn:C; [|discriminate]. injection H as <-. cbn. unfold upd. destruct (Nat.eqb_spec p p0) as [->|N].
      * unfold wake_sync. destruct (s_drain s p0); [discriminate| |discriminate]. destruct (any_held p0 _) eqn:A; [|discriminate]. intros _. right. exact A.
      * intros D. left. split; [exact D|]. intros t' [= <-] C'. congruence.
    + injection H as <-. intros D. left. split; [exact D|]. intros t' [= <-] _ (m & w' & X). congruence.
  - destruct (s_lock s); [discriminate|]. destruct (get i (s_calls s)) as [[]|]; [| | |discriminate]; injection H as <-; intros D; left; (split; [exact D|discriminate]).
  - destruct (s_lock s) as [[[i [|p' rest]] [c|]]|]; try discriminate. injection H as <-. intros D; left; (split; [exact D|discriminate]).
  - destruct (s_lock s) as [[[i [|p' rest]] [c|]]|]; try discriminate. injection H as <-. intros D; left; (split; [exact D|discriminate]).
  - destruct (s_drain s p0) eqn:D0; [|discriminate|discriminate]. destruct (s_inbox s p0) as [|[] r]; [discriminate| | |]; injection H as <-; cbn.
    + intros D; left; (split; [exact D|discriminate]).
    + intros D; left; (split; [exact D|discriminate]).
    + unfold upd. destruct (Nat.eqb_spec p p0) as [->|N]; [|intros D; left; (split; [exact D|discriminate])]. destruct (any_held p0 (s_held s)) eqn:A; [|discriminate]. intros _. now right.
  - destruct (s_drain s p0) eqn:D0; [discriminate|discriminate|].
    assert (X : upd (s_drain s) p0 NotSyncing p = Waiting -> s_drain s p = Waiting) by (unfold upd; destruct (p =? p0); [discriminate|auto]).
    destruct (s_lock s) as [[[i rest] [q|]]|]; [destruct (q =? p0)| |]; injection H as <-; cbn; intros D; left; (split; [exact (X D)|discriminate]).
Qed.

Lemma Waits_step s l s' : Waits s -> step cfg s l = Some s' -> Waits s'.
Proof.
  intros W H p D. destruct (drain_step s l s' p H D) as [[D0 A]|A]; [|now apply any_held_In].
  destruct (held_step s l s' H) as [E|[(t & m & todo & q & w & _ & _ & _ & E)|(t & m & q & w & -> & Et & C & E)]].
  - unfold in_flight. rewrite E. exact (W p D0).
  - destruct (W p D0) as (m' & t' & I). exists m', t'. rewrite E. apply in_or_app. now left.
  - destruct (Nat.eq_dec q p) as [->|N].
    + apply any_held_In. apply (A t eq_refl C). eauto.
    + destruct (W p D0) as (m' & t' & I). exists m', t'. rewrite E. apply filter_In. split; [exact I|]. apply negb_true_iff.
      destruct (same q m t (p, m', t')) eqn:S; [|reflexivity]. apply same_spec in S. congruence.
Qed.

(* ---- inboxes are those of publishers; calls have different numbers ---- *)

Definition Home (s : state) : Prop := forall p, ~ In p (c_pubs cfg) -> s_inbox s p = [] /\ s_drain s p = NotSyncing.

Lemma Home_step s l s' : Base s -> Proto s -> Home s -> step cfg s l = Some s' -> Home s'.
Proof.
  intros B P M H p N. destruct (M p N) as [A D]. destruct l; cbn in H; try (injection H as <-; auto; fail).
  - destruct (s_task s t); [|discriminate]. destruct (c_src cfg t); [discriminate|]. destruct (mem t (c_tasks cfg)); [|discriminate]. injection H as <-. auto.
  - destruct (s_task s t); [|discriminate]. destruct (s_queue s t); [discriminate|]. injection H as <-. auto.
  - destruct (s_task s t) as [|m [|q todo] [|]]; try discriminate. destruct (s_run s q); [|discriminate]. destruct (available cfg q s); injection H as <-; auto.
  - destruct (s_task s t) as [|m [|q todo] [|]]; try discriminate. destruct (available cfg q s); [|discriminate]. injection H as <-. auto.
  - destruct (s_task s t) as [|[m|] [|q todo] w]; try discriminate; [destruct (c_src cfg t) as [p0|]; [|discriminate]|]; injection H as <-; cbn; split; auto.
    unfold upd. destruct (Nat.eqb_spec p p0) as [->|]; [|exact D]. now rewrite D.
  - assert (Z : mem p (c_pubs cfg) = false) by (destruct (mem p (c_pubs cfg)) eqn:Z; [apply mem_In in Z; contradiction|reflexivity]).
    destruct (s_lock s); [discriminate|]. destruct (get i (s_calls s)) as [[]|]; [| | |discriminate]; injection H as <-; cbn; try rewrite Z; auto.
  - destruct (s_lock s) as [[[i [|q rest]] [c|]]|] eqn:L; try discriminate. injection H as <-. cbn. split; [|exact D]. rewrite upd_neq; [exact A|].
    intros ->. apply N. destruct (t_lock _ P _ _ _ L) as [fin F]. rewrite F. apply in_or_app. right. now left.
  - destruct (s_lock s) as [[[i [|q rest]] [c|]]|]; try discriminate. injection H as <-. auto.
  - destruct (Nat.eq_dec p0 p) as [->|NE]; [rewrite D, A in H; discriminate|].
    destruct (s_drain s p0); [|discriminate|discriminate]. destruct (s_inbox s p0) as [|[] r]; [discriminate| | |]; injection H as <-; cbn; rewrite !upd_neq by congruence; auto.
  - destruct (Nat.eq_dec p0 p) as [->|NE]; [rewrite D in H; discriminate|].
    destruct (s_drain s p0); [discriminate|discriminate|]. destruct (s_lock s) as [[[i rest] [q|]]|]; [destruct (q =? p0)| |]; injection H as <-; cbn; rewrite upd_neq by congruence; auto.
Qed.

Definition lock_id (s : state) : list nat := match s_lock s with Some (i, _, _) => [i] | None => [] end.
Record Fresh (s : state) : Prop := {
  f_calls : forall i, In i (keys (s_calls s)) -> i < s_next s /\ ~ In i (lock_id s) /\ ~ In i (s_synced s);
  f_lock : forall i, In i (lock_id s) -> i < s_next s /\ ~ In i (s_synced s);
  f_synced : forall i, In i (s_synced s) -> i < s_next s
}.


Lemma Fresh_same s s' : Fresh s -> s_calls s' = s_calls s -> lock_id s' = lock_id s -> s_next s' = s_next s -> s_synced s' = s_synced s -> Fresh s'.
Proof. intros [A B C] E1 E2 E3 E4. constructor; rewrite ?E1, ?E2, ?E3, ?E4; assumption. Qed.

Lemma Fresh_step s l s' : Fresh s -> step cfg s l = Some s' -> Fresh s'.
Proof.
  intros F H. destruct l; cbn in H; try (injection H as <-; now apply (Fresh_same s)).
  - destruct (s_task s t); [|discriminate]. destruct (c_src cfg t); [discriminate|]. destruct (mem t (c_tasks cfg)); [|discriminate]. injection H as <-. now apply (Fresh_same s).
  - injection H as <-. destruct F as [A B C]. constructor; cbn.
    + unfold lock_id, keys in *. cbn. intros i I. rewrite map_app in I. apply in_app_or in I as [I|[<-|[]]].
      * destruct (A i I) as (X & Y & Z). split; [lia|]. auto.
      * cbn. split; [lia|]. split; [intros I; destruct (B _ I); lia|intros I; pose proof (C _ I); lia].
    + intros i I. destruct (B i I). split; [lia|assumption].
    + intros i I. pose proof (C i I). lia.
  - destruct (s_task s t); [|discriminate]. destruct (s_queue s t); [discriminate|]. injection H as <-. now apply (Fresh_same s).
  - destruct (s_task s t) as [|m [|q todo] [|]]; try discriminate. destruct (s_run s q); [|discriminate]. destruct (available cfg q s); injection H as <-; now apply (Fresh_same s).
  - destruct (s_task s t) as [|m [|q todo] [|]]; try discriminate. destruct (available cfg q s); [|discriminate]. injection H as <-. now apply (Fresh_same s).
  - destruct (s_task s t) as [|[m|] [|q todo] w]; try discriminate; [destruct (c_src cfg t) as [p0|]; [|discriminate]|]; injection H as <-; now apply (Fresh_same s).
  - destruct F as [A B C]. destruct (s_lock s) eqn:L; [discriminate|]. destruct (get i (s_calls s)) as [c|] eqn:G; [|discriminate]. apply get_Some_key in G. destruct (A i G) as (X & _ & Z).
    destruct c; injection H as <-; constructor; unfold lock_id in *; cbn; rewrite ?L in *; intros j I; try (apply keys_del in I as [NE I]; destruct (A j I) as (X' & Y' & Z')); try (now apply C); try contradiction; auto.
    + split; [exact X'|]. split; [|exact Z']. intros [->|[]]. congruence.
    + destruct I as [<-|[]]. auto.
  - destruct (s_lock s) as [[[i [|q rest]] [c|]]|] eqn:L; try discriminate. injection H as <-. apply (Fresh_same s); [exact F|reflexivity|unfold lock_id; cbn; now rewrite L|reflexivity|reflexivity].
  - destruct F as [A B C]. destruct (s_lock s) as [[[i [|q rest]] [c|]]|] eqn:L; try discriminate. injection H as <-. unfold lock_id in *. rewrite L in *.
    destruct (B i (or_introl eq_refl)) as [X Y]. constructor; unfold lock_id; cbn.
    + intros j I. destruct (A j I) as (X' & Y' & Z'). split; [exact X'|]. split; [tauto|]. intros I'. apply in_app_or in I' as [I'|[->|[]]]; [exact (Z' I')|apply Y'; now left].
    + intros j [].
    + intros j I. apply in_app_or in I as [I|[<-|[]]]; [exact (C j I)|exact X].
  - destruct (s_drain s p); [|discriminate|discriminate]. destruct (s_inbox s p) as [|[] r]; [discriminate| | |]; injection H as <-; now apply (Fresh_same s).
  - destruct (s_drain s p); [discriminate|discriminate|]. destruct (s_lock s) as [[[i rest] [q|]]|] eqn:L; [destruct (q =? p)| |]; injection H as <-; (apply (Fresh_same s); [exact F|reflexivity|unfold lock_id; cbn; now rewrite L|reflexivity|reflexivity]).
Qed.

Record Good (s : state) : Prop := { g_base : Base s; g_proto : Proto s; g_waits : Waits s; g_home : Home s; g_fresh : Fresh s }.
Lemma Good_init : Good init.
Proof.
  constructor; [exact Base_init|exact Proto_init|intros p D; discriminate|intros p _; auto|].
  constructor; cbn; intros i [].
Qed.
Lemma Good_step s l s' : Good s -> step cfg s l = Some s' -> Good s'.
Proof.
  intros [B P W M F] H. constructor; [exact (Base_step _ _ _ B H)|exact (Proto_step _ _ _ P H)|exact (Waits_step _ _ _ W H)|exact (Home_step _ _ _ B P M H)|exact (Fresh_step _ _ _ F H)].
Qed.
Lemma Good_steps ls : forall s s', Good s -> steps cfg s ls = Some s' -> Good s'.
Proof. induction ls as [|l ls IH]; intros s s' G H; cbn in H; [injection H as <-; exact G|]. destruct (step cfg s l) eqn:E; [|discriminate]. eapply IH; [exact (Good_step _ _ _ G E)|exact H]. Qed.

(* ---- safety ---- *)

(** The publisher is paused for good, as long as nobody resumes it. *)
Definition paused (s : state) (p : nat) : Prop :=
  s_run s p = false /\ (forall t, ~ waits_on s t p) /\ ~ In RESUME (s_inbox s p).

Lemma paused_step s l s' p : paused s p -> ~ resumes s l -> step cfg s l = Some s' -> paused s' p.
Proof.
  intros (R & W & I) NR H. unfold paused.
  assert (TW : forall x : nat -> activity, (forall u m todo, x u = Busy m (p :: todo) true -> exists m' todo', s_task s u = Busy m' (p :: todo') true) -> s_task s' = x -> forall u, ~ waits_on s' u p)
    by (intros x X E u (m & todo & Z); rewrite E in Z; destruct (X u m todo Z) as (m' & todo' & Z'); apply (W u); exists m', todo'; exact Z').
  destruct l; cbn in H, NR; try contradiction; try (injection H as <-; now split).
  - destruct (s_task s t) eqn:E; [|discriminate]. destruct (c_src cfg t); [discriminate|]. destruct (mem t (c_tasks cfg)); [|discriminate]. injection H as <-. split; [exact R|]. split; [|exact I].
    eapply TW; [|reflexivity]. intros u m todo. cbn. unfold upd. destruct (u =? t); [discriminate|eauto].
  - injection H as <-. cbn. split; [|split; [exact W|exact I]]. unfold upd. now destruct (p =? p0).
  - destruct (s_task s t) eqn:E; [|discriminate]. destruct (s_queue s t); [discriminate|]. injection H as <-. split; [exact R|]. split; [|exact I].
    eapply TW; [|reflexivity]. intros u m todo. cbn. unfold upd. destruct (u =? t); [discriminate|eauto].
  - destruct (s_task s t) as [|m [|q todo] [|]] eqn:E; try discriminate. destruct (s_run s q) eqn:Rq; [|discriminate]. destruct (available cfg q s); injection H as <-; (split; [exact R|]; split; [|exact I]).
    + eapply TW; [|reflexivity]. intros u m' todo'. cbn. unfold upd. destruct (u =? t); [discriminate|eauto].
    + eapply TW; [|reflexivity]. intros u m' todo'. cbn. unfold upd. destruct (u =? t); [|eauto]. intros [= -> -> ->]. congruence.
  - destruct (s_task s t) as [|m [|q todo] [|]] eqn:E; try discriminate. destruct (available cfg q s); [|discriminate]. injection H as <-. split; [exact R|]. split; [|exact I].
    eapply TW; [|reflexivity]. intros u m' todo'. cbn. unfold upd. destruct (u =? t); [discriminate|eauto].
  - destruct (s_task s t) as [|[m|] [|q todo] w] eqn:E; try discriminate; [destruct (c_src cfg t) as [p0|]; [|discriminate]|]; injection H as <-; (split; [exact R|]; split; [|exact I]);
      (eapply TW; [|reflexivity]; intros u m' todo'; cbn; unfold upd; destruct (u =? t); [discriminate|eauto]).
  - destruct (s_lock s); [discriminate|]. destruct (get i (s_calls s)) as [[]|]; [|congruence| |discriminate]; injection H as <-; cbn; (split; [exact R|]; split; [exact W|]); [|exact I].
    destruct (mem p (c_pubs cfg)); [|exact I]. intros X. apply in_app_or in X as [X|[X|[]]]; [exact (I X)|discriminate].
  - destruct (s_lock s) as [[[i [|q rest]] [c|]]|]; try discriminate. injection H as <-. cbn. split; [exact R|]. split; [exact W|].
    unfold upd. destruct (Nat.eqb_spec p q) as [->|]; [|exact I]. intros X. apply in_app_or in X as [X|[X|[]]]; [exact (I X)|discriminate].
  - destruct (s_lock s) as [[[i [|q rest]] [c|]]|]; try discriminate. injection H as <-. now split.
  - destruct (s_drain s p0); [|discriminate|discriminate]. destruct (s_inbox s p0) as [|c r] eqn:In0; [discriminate|].
    assert (X : ~ In RESUME (upd (s_inbox s) p0 r p)).
    { unfold upd. destruct (Nat.eqb_spec p p0) as [->|]; [|exact I]. intros Z. apply I. rewrite In0. now right. }
    destruct c; injection H as <-; cbn; (split; [|split; [exact W|exact X]]); unfold upd; destruct (Nat.eqb_spec p p0) as [->|]; auto.
    exfalso. apply I. rewrite In0. now left.
  - destruct (s_drain s p0); [discriminate|discriminate|]. destruct (s_lock s) as [[[i rest] [q|]]|]; [destruct (q =? p0)| |]; injection H as <-; now split.
Qed.

Definition clear (s : state) (p : nat) : Prop := paused s p /\ ~ in_flight s p.

Lemma nothing_step s l s' p : paused s p -> ~ in_flight s p -> step cfg s l = Some s' -> ~ in_flight s' p.
Proof.
  intros (R & W & _) NF H (m & t & I). apply NF.
  destruct (held_step s l s' H) as [E|[(u & m' & todo & q & w & Eu & RW & _ & E)|(u & m' & q & w & _ & _ & _ & E)]]; rewrite E in I.
  - exists m, t. exact I.
  - apply in_app_or in I as [I|I]; [exists m, t; exact I|]. apply in_map_iff in I as [x [[= <- <- <-] _]]. exfalso.
    destruct RW as [RW| ->]; [congruence|]. apply (W u). exists m', todo. exact Eu.
  - apply filter_In in I as [I _]. exists m, t. exact I.
Qed.

Lemma clear_step s l s' p : clear s p -> ~ resumes s l -> step cfg s l = Some s' -> clear s' p.
Proof. intros [A B] NR H. split; [exact (paused_step s l s' p A NR H)|exact (nothing_step s l s' p A B H)]. Qed.

(** Progress of the sync() with number [i]. *)
Definition Safe (i : nat) (s : state) : Prop :=
  (In i (s_synced s) /\ forall p, In p (c_pubs cfg) -> clear s p) \/
  (exists fin rest cur, s_lock s = Some (i, rest, cur) /\ c_pubs cfg = fin ++ cur_list cur ++ rest /\ (forall p, In p fin -> clear s p) /\
     forall p, cur = Some p -> (s_drain s p = Waiting -> paused s p) /\ (s_drain s p = Woken -> clear s p)).

Lemma synced_mono s l s' i : step cfg s l = Some s' -> In i (s_synced s) -> In i (s_synced s').
Proof.
  intros H I. destruct l; cbn in H; try (injection H as <-; exact I).
  - destruct (s_task s t); [|discriminate]. destruct (c_src cfg t); [discriminate|]. destruct (mem t (c_tasks cfg)); [|discriminate]. injection H as <-. exact I.
  - destruct (s_task s t); [|discriminate]. destruct (s_queue s t); [discriminate|]. injection H as <-. exact I.
  - destruct (s_task s t) as [|m [|q todo] [|]]; try discriminate. destruct (s_run s q); [|discriminate]. destruct (available cfg q s); injection H as <-; exact I.
  - destruct (s_task s t) as [|m [|q todo] [|]]; try discriminate. destruct (available cfg q s); [|discriminate]. injection H as <-. exact I.
  - destruct (s_task s t) as [|[m|] [|q todo] w]; try discriminate; [destruct (c_src cfg t) as [p0|]; [|discriminate]|]; injection H as <-; exact I.
  - destruct (s_lock s); [discriminate|]. destruct (get i0 (s_calls s)) as [[]|]; [| | |discriminate]; injection H as <-; exact I.
  - destruct (s_lock s) as [[[j [|q rest]] [c|]]|]; try discriminate. injection H as <-. exact I.
  - destruct (s_lock s) as [[[j [|q rest]] [c|]]|]; try discriminate. injection H as <-. cbn. apply in_or_app. now left.
  - destruct (s_drain s p); [|discriminate|discriminate]. destruct (s_inbox s p) as [|[] r]; [discriminate| | |]; injection H as <-; exact I.
  - destruct (s_drain s p); [discriminate|discriminate|]. destruct (s_lock s) as [[[j rest] [q|]]|]; [destruct (q =? p)| |]; injection H as <-; exact I.
Qed.

Lemma Safe_step i s l s' : Good s -> Safe i s -> ~ resumes s l -> ~ interrupts s l -> step cfg s l = Some s' -> Safe i s'.
Proof.
  intros G S NR NI H. pose proof (Good_step _ _ _ G H) as G'. destruct S as [[I C]|(fin & rest & cur & L & P & F & Cu)].
  { left. split; [exact (synced_mono _ _ _ _ H I)|]. intros p Ip. exact (clear_step _ _ _ _ (C p Ip) NR H). }
  assert (K : s_lock s' = s_lock s -> (forall p, cur = Some p -> (s_drain s' p = Waiting -> s_drain s p = Waiting \/ paused s' p) /\ (s_drain s' p = Woken -> s_drain s p = Woken \/ clear s' p)) -> Safe i s').
  { intros L' D. right. exists fin, rest, cur. split; [congruence|]. split; [exact P|]. split; [intros p Ip; exact (clear_step _ _ _ _ (F p Ip) NR H)|].
    intros p Ep. destruct (Cu p Ep) as [C1 C2]. destruct (D p Ep) as [D1 D2]. split.
    - intros W. destruct (D1 W) as [W0|X]; [|exact X]. exact (paused_step _ _ _ _ (C1 W0) NR H).
    - intros W. destruct (D2 W) as [W0|X]; [|exact X]. exact (clear_step _ _ _ _ (C2 W0) NR H). }
  pose proof H as H0. destruct l; cbn in H; try (injection H as <-; apply K; [reflexivity|cbn; tauto]).
  - destruct (s_task s t); [|discriminate]. destruct (c_src cfg t); [discriminate|]. destruct (mem t (c_tasks cfg)); [|discriminate]. injection H as <-. apply K; [reflexivity|cbn; tauto].
  - destruct (s_task s t); [|discriminate]. destruct (s_queue s t); [discriminate|]. injection H as <-. apply K; [reflexivity|cbn; tauto].
  - destruct (s_task s t) as [|m [|q todo] [|]]; try discriminate. destruct (s_run s q); [|discriminate]. destruct (available cfg q s); injection H as <-; (apply K; [reflexivity|cbn; tauto]).
  - destruct (s_task s t) as [|m [|q todo] [|]]; try discriminate. destruct (available cfg q s); [|discriminate]. injection H as <-. apply K; [reflexivity|cbn; tauto].
  - destruct (s_task s t) as [|[m|] [|q todo] w]; try discriminate; [destruct (c_src cfg t) as [p0|] eqn:Ct; [|discriminate]|]; injection H as <-; (apply K; [reflexivity|]); [|cbn; tauto].
    intros p Ep. destruct (Cu p Ep) as [C1 C2]. cbn [s_drain set_task set_drain set_held]. unfold upd. destruct (Nat.eqb_spec p p0) as [->|]; [|tauto]. unfold wake_sync.
    destruct (s_drain s p0) eqn:D; [split; discriminate| |split; [discriminate|auto]]. destruct (any_held p0 _) eqn:A; [split; [auto|discriminate]|]. split; [discriminate|].
    intros _. right. pose proof (paused_step _ _ _ _ (C1 eq_refl) NR H0) as PS. split; [exact PS|].
    intros (m' & t' & I). assert (X : any_held p0 (filter (fun h => negb (same p0 m t h)) (s_held s)) = true) by (apply any_held_In; exists m', t'; exact I). congruence.
  - rewrite L in H. discriminate.
  - rewrite L in H. destruct rest as [|q rest]; [discriminate|]. destruct cur; [discriminate|]. injection H as <-. right. exists fin, rest, (Some q). split; [reflexivity|]. split; [exact P|].
    split; [intros p Ip; exact (clear_step _ _ _ _ (F p Ip) NR H0)|]. intros p [= <-]. pose proof (t_pub _ (g_proto _ G) q) as Q. unfold proto in Q. rewrite L in Q. cbn in Q. destruct Q as [Q _].
    cbn. rewrite Q. split; discriminate.
  - rewrite L in H. destruct rest as [|q rest]; [|discriminate]. destruct cur; [discriminate|]. injection H as <-. left. split; [cbn; apply in_or_app; right; now left|].
    cbn in P. rewrite app_nil_r in P. rewrite P. intros p Ip. exact (clear_step _ _ _ _ (F p Ip) NR H0).
  - destruct (s_drain s p) eqn:D; [|discriminate|discriminate]. destruct (s_inbox s p) as [|c r] eqn:In0; [discriminate|].
    assert (Z : c <> SYNC -> s_lock s' = s_lock s /\ s_drain s' = s_drain s) by (intros N; destruct c; [| |congruence]; injection H as <-; auto).
    destruct c; [destruct Z as [Z1 Z2]; [discriminate|]; apply K; [exact Z1|rewrite Z2; tauto]|destruct Z as [Z1 Z2]; [discriminate|]; apply K; [exact Z1|rewrite Z2; tauto]|].
    injection H as <-. apply K; [reflexivity|]. intros p' Ep. set (s1 := set_drain _ _) in *.
    assert (Ds : s_drain s1 p' = if p' =? p then wake_sync p (s_held s) Waiting else s_drain s p') by reflexivity.
    rewrite Ds. destruct (Nat.eqb_spec p' p) as [->|]; [|split; auto].
    assert (PS : paused s1 p).
    { split; [unfold s1; cbn; apply upd_eq|]. split.
      - intros t Wt. apply NI. cbn. split; [exists r; exact In0|]. exists t. exact Wt.
      - pose proof (t_pub _ (g_proto _ G') p) as Q. unfold proto in Q. unfold s1 in Q at 1. cbn [s_lock set_drain set_run set_inbox] in Q. rewrite L in Q. cbn [told] in Q. rewrite Ep, Nat.eqb_refl in Q.
        destruct Q as [[Q _]|[_ Q]]; [|rewrite Q; intros []]. exfalso. unfold s1 in Q. cbn in Q. rewrite upd_eq in Q. destruct (any_held p (s_held s)); discriminate. }
    split; [auto|]. unfold wake_sync. destruct (any_held p (s_held s)) eqn:A; [discriminate|]. intros _. right. split; [exact PS|].
    intros (m & t & I). assert (X : any_held p (s_held s) = true) by (apply any_held_In; exists m, t; exact I). congruence.
  - destruct (s_drain s p) eqn:D; [discriminate|discriminate|]. rewrite L in H.
    pose proof (t_pub _ (g_proto _ G) p) as Q. unfold proto in Q. rewrite L in Q. cbn in Q. destruct cur as [q|]; [|destruct Q as [Q _]; congruence].
    destruct (Nat.eqb_spec q p) as [->|]; [|destruct Q as [Q _]; congruence]. injection H as <-. right. exists (fin ++ [p]), rest, None. split; [reflexivity|]. split; [rewrite <- app_assoc; exact P|].
    split; [|discriminate]. intros u Iu. apply (clear_step _ _ _ _) with (1 := match in_app_or _ _ _ Iu with or_introl X => F u X | or_intror (or_introl E) => eq_ind p (clear s) (proj2 (Cu p eq_refl) D) u E | or_intror (or_intror X) => match X with end end) (2 := NR) (3 := H0).
Qed.

Lemma Safe_steps i ls : forall s s', Good s -> Safe i s -> throughout cfg (fun s l => ~ resumes s l /\ ~ interrupts s l) s ls -> steps cfg s ls = Some s' -> Safe i s'.
Proof.
  induction ls as [|l ls IH]; intros s s' G S T H; cbn in H, T; [injection H as <-; exact S|]. destruct (step cfg s l) as [s1|] eqn:E; [|discriminate].
  destruct T as [[NR NI] T]. exact (IH s1 s' (Good_step _ _ _ G E) (Safe_step _ _ _ _ G S NR NI E) (T s1 eq_refl) H).
Qed.

Lemma Safe_serve i s s' : get i (s_calls s) = Some SYNC -> step cfg s (Serve i) = Some s' -> Safe i s'.
Proof.
  intros C H. cbn in H. destruct (s_lock s); [discriminate|]. rewrite C in H. injection H as <-. right. exists [], (c_pubs cfg), None. cbn. split; [reflexivity|]. split; [reflexivity|]. split; [intros p []|discriminate].
Qed.

Lemma Safe_quiet i s : Good s -> Safe i s -> In i (s_synced s) -> quiet cfg s.
Proof.
  intros G [[_ C]|(fin & rest & cur & L & _)] I.
  - split.
    + intros p Ip. destruct (C p Ip) as [[R _] N]. auto.
    + intros t p It Ct. destruct PL as (_ & _ & P1 & _). destruct (C p (P1 t p It Ct)) as [_ N].
      assert (M : forall m, ~ In m (mine s t)) by (intros m Im; apply N; exists m, t; apply (b_held _ (g_base _ G)); auto).
      unfold mine in M. split.
      * destruct (s_queue s t) as [|m r]; [reflexivity|]. destruct (M m). apply in_or_app. right. now left.
      * destruct (s_task s t) as [|[m|] todo w] eqn:E; [reflexivity| |].
        -- destruct (M m). now left.
        -- destruct (b_task _ (g_base _ G) _ _ _ _ E) as (_ & _ & X). destruct X as [X _]. specialize (X eq_refl). congruence.
  - exfalso. apply (f_lock _ (g_fresh _ G) i); [unfold lock_id; rewrite L; now left|exact I].
Qed.

(* ---- at rest ---- *)

Lemma before_split p q a l : NoDup (c_pubs cfg) -> c_pubs cfg = a ++ p :: l -> before p q (c_pubs cfg) -> In q l.
Proof.
  intros ND E (a' & l' & E' & I). enough (l = l') by congruence. rewrite E in ND, E'. clear E.
  revert a' E'. induction a as [|x a IH]; intros a' E'.
  - cbn in *. inversion ND as [|y ys NI ND' E1]. subst. destruct a' as [|x' a']; cbn in E'; [congruence|]. injection E' as -> E'. destruct NI. rewrite E'. apply in_or_app. right. now left.
  - cbn in *. inversion ND as [|y ys NI ND' E1]. subst. destruct a' as [|x' a']; cbn in E'.
    + injection E' as -> _. destruct NI. apply in_or_app. right. now left.
    + injection E' as -> E'. exact (IH ND' a' E').
Qed.

(** At rest, if those registered after [p] run, nothing of [p] is on its way. *)
Lemma rest_step s p a l : upstream_first cfg -> Good s -> at_rest cfg s -> c_pubs cfg = a ++ p :: l ->
  (forall q, In q l -> s_run s q = true /\ ~ in_flight s q) -> ~ in_flight s p.
Proof.
  intros U G AR E D (m & t & I). apply (b_held _ (g_base _ G)) in I as (It & Ct & Im).
  destruct (s_task s t) as [|mo todo w] eqn:Et.
  - unfold mine in Im. rewrite Et in Im. cbn in Im. destruct (s_queue s t) as [|x r] eqn:Q; [contradiction|]. specialize (AR (Take t) eq_refl). cbn in AR. rewrite Et, Q in AR. discriminate.
  - destruct (b_task _ (g_base _ G) _ _ _ _ Et) as (_ & IO & MN).
    destruct mo as [m0|]; [|destruct MN as [MN _]; specialize (MN eq_refl); congruence].
    destruct todo as [|q todo].
    + specialize (AR (Done t) eq_refl). cbn in AR. rewrite Et, Ct in AR. discriminate.
    + assert (Iq : In q l).
      { destruct PL as (ND & _). apply (before_split p q a l ND E). apply (U t p q It Ct). apply IO. now left. }
      destruct (D q Iq) as [R N].
      assert (A : available cfg q s = true).
      { unfold available. apply negb_true_iff. destruct (existsb _ (s_held s)) eqn:X; [|reflexivity]. apply existsb_exists in X as [[[q' m'] t'] [I' B]]. apply andb_true_iff in B as [B _]. apply Nat.eqb_eq in B. subst q'.
        destruct N. exists m', t'. exact I'. }
      destruct w.
      * specialize (AR (Wake t) eq_refl). cbn in AR. rewrite Et, A in AR. discriminate.
      * specialize (AR (Publish t) eq_refl). cbn in AR. rewrite Et, R, A in AR. discriminate.
Qed.

Lemma rest_all s : upstream_first cfg -> Good s -> at_rest cfg s -> forall l a, c_pubs cfg = a ++ l -> (forall q, In q l -> s_run s q = true) -> forall q, In q l -> ~ in_flight s q.
Proof.
  intros U G AR. induction l as [|p l IH]; intros a E R q I; [destruct I|].
  assert (D : forall q, In q l -> ~ in_flight s q) by (apply (IH (a ++ [p])); [rewrite <- app_assoc; exact E|intros x Ix; apply R; now right]).
  destruct I as [<-|I]; [|exact (D q I)]. apply (rest_step s p a l U G AR E). intros x Ix. split; [apply R; now right|exact (D x Ix)].
Qed.

(** While a sync() is served whose publishers ran when it was taken up, those still to be told run. *)
Definition Ready (s : state) : Prop := forall i rest cur, s_lock s = Some (i, rest, cur) -> forall q, In q rest -> s_run s q = true /\ s_inbox s q = [].

Lemma Ready_step s l s' : Good s -> Ready s -> ~ syncs_paused cfg s l -> ~ local_pause l -> step cfg s l = Some s' -> Ready s'.
Proof.
  intros G R NS NL H. assert (K : s_lock s' = s_lock s -> s_run s' = s_run s -> s_inbox s' = s_inbox s -> Ready s') by (unfold Ready; intros -> -> ->; exact R).
  assert (NDl : forall i rest p, s_lock s = Some (i, p :: rest, None) -> ~ In p rest).
  { intros i rest p L. destruct (t_lock _ (g_proto _ G) _ _ _ L) as [fin F]. cbn in F. destruct PL as (ND & _). rewrite F in ND. apply NoDup_remove_2 in ND. intros I. apply ND. apply in_or_app. now right. }
  destruct l; cbn in H, NL; try contradiction; try (injection H as <-; now apply K).
  - destruct (s_task s t); [|discriminate]. destruct (c_src cfg t); [discriminate|]. destruct (mem t (c_tasks cfg)); [|discriminate]. injection H as <-. now apply K.
  - injection H as <-. intros i rest cur L q I. destruct (R i rest cur L q I) as [A B]. split; [|exact B]. cbn. unfold upd. now destruct (q =? p).
  - destruct (s_task s t); [|discriminate]. destruct (s_queue s t); [discriminate|]. injection H as <-. now apply K.
  - destruct (s_task s t) as [|m [|q todo] [|]]; try discriminate. destruct (s_run s q); [|discriminate]. destruct (available cfg q s); injection H as <-; now apply K.
  - destruct (s_task s t) as [|m [|q todo] [|]]; try discriminate. destruct (available cfg q s); [|discriminate]. injection H as <-. now apply K.
  - destruct (s_task s t) as [|[m|] [|q todo] w]; try discriminate; [destruct (c_src cfg t) as [p0|]; [|discriminate]|]; injection H as <-; now apply K.
  - destruct (s_lock s) eqn:L; [discriminate|]. cbn in NS. destruct (get i (s_calls s)) as [[]|]; [| | |discriminate]; injection H as <-; intros j rest cur; cbn; [congruence|congruence|]. intros [= <- <- <-] q I.
    destruct (s_run s q) eqn:Rq; [|destruct NS; split; [reflexivity|]; exists q; auto]. split; [reflexivity|]. destruct (s_inbox s q) eqn:Iq; [reflexivity|]. destruct NS. split; [reflexivity|]. exists q. split; [exact I|]. right. rewrite Iq. discriminate.
  - destruct (s_lock s) as [[[j [|q rest]] [c|]]|] eqn:L; try discriminate. injection H as <-. intros i' rest' cur' [= <- <- <-] x I. destruct (R _ _ _ L x (or_intror I)) as [A B]. split; [exact A|]. cbn.
    rewrite upd_neq; [exact B|]. intros ->. exact (NDl _ _ _ eq_refl I).
  - destruct (s_lock s) as [[[j [|q rest]] [c|]]|] eqn:L; try discriminate. injection H as <-. intros i' rest' cur'. discriminate.
  - destruct (s_drain s p); [|discriminate|discriminate]. destruct (s_inbox s p) as [|c r] eqn:In0; [discriminate|].
    assert (N : forall i rest cur, s_lock s = Some (i, rest, cur) -> ~ In p rest) by (intros i rest cur L I; destruct (R i rest cur L p I); congruence).
    destruct c; injection H as <-; intros i rest cur L q I; cbn in L; destruct (R i rest cur L q I) as [A B]; cbn;
      (assert (NE : q <> p) by (intros ->; exact (N _ _ _ L I))); rewrite !upd_neq by exact NE; auto.
  - destruct (s_drain s p); [discriminate|discriminate|]. destruct (s_lock s) as [[[j rest] [q|]]|] eqn:L; [destruct (q =? p)| |]; injection H as <-; try (apply K; [cbn; congruence|reflexivity|reflexivity]).
    intros i' rest' cur' [= <- <- <-] x I. exact (R _ _ _ L x I).
Qed.

Lemma Ready_steps ls : forall s s', Good s -> Ready s -> throughout cfg (fun s l => ~ syncs_paused cfg s l /\ ~ local_pause l) s ls -> steps cfg s ls = Some s' -> Ready s'.
Proof.
  induction ls as [|l ls IH]; intros s s' G S T H; cbn in H, T; [injection H as <-; exact S|]. destruct (step cfg s l) as [s1|] eqn:E; [|discriminate].
  destruct T as [[NR NI] T]. exact (IH s1 s' (Good_step _ _ _ G E) (Ready_step _ _ _ G S NR NI E) (T s1 eq_refl) H).
Qed.

Lemma rest_unlocked s : upstream_first cfg -> Good s -> Ready s -> at_rest cfg s -> s_lock s = None /\ s_calls s = [].
Proof.
  intros U G R AR. assert (L : s_lock s = None).
  { destruct (s_lock s) as [[[i rest] cur]|] eqn:L; [|reflexivity]. exfalso. destruct cur as [p|].
    - pose proof (t_pub _ (g_proto _ G) p) as Q. unfold proto in Q. rewrite L in Q. cbn in Q. rewrite Nat.eqb_refl in Q.
      pose proof (AR (Hear p) eq_refl) as A1. pose proof (AR (Drained p) eq_refl) as A2. cbn in A1, A2.
      destruct (s_drain s p) eqn:D.
      + destruct Q as [[_ [l [El _]]]|[Q _]]; [|congruence]. rewrite El in A1. destruct (l ++ [SYNC]) as [|c r] eqn:X; [destruct l; discriminate|]. destruct c; discriminate.
      + destruct (t_lock _ (g_proto _ G) _ _ _ L) as [fin F]. cbn in F.
        apply (rest_step s p fin rest U G AR F); [|exact (g_waits _ G p D)].
        intros q I. destruct (R _ _ _ L q I) as [Rq _]. split; [exact Rq|].
        refine (rest_all s U G AR rest (fin ++ [p]) _ _ q I); [rewrite <- app_assoc; exact F|]. intros x Ix. now destruct (R _ _ _ L x Ix).
      + rewrite L in A2. rewrite Nat.eqb_refl in A2. discriminate.
    - destruct rest as [|p rest]; [pose proof (AR Finish eq_refl) as A|pose proof (AR Tell eq_refl) as A]; cbn in A; rewrite L in A; discriminate. }
  split; [exact L|]. destruct (s_calls s) as [|[i c] r] eqn:C; [reflexivity|]. pose proof (AR (Serve i) eq_refl) as A. cbn [step] in A. rewrite L, C in A.
  assert (X : get i ((i, c) :: r) = Some c) by (cbn; destruct (dec i i); [reflexivity|congruence]). rewrite X in A. destruct c; discriminate.
Qed.

Lemma rest_running s : upstream_first cfg -> Good s -> at_rest cfg s -> (forall p, In p (c_pubs cfg) -> s_run s p = true) ->
  (forall p, ~ in_flight s p) /\ forall t, s_queue s t = [] /\ s_task s t = Idle.
Proof.
  intros U G AR R. assert (N : forall p, ~ in_flight s p).
  { intros p (m & t & I). pose proof I as I0. apply (b_held _ (g_base _ G)) in I as (It & Ct & _). destruct PL as (_ & _ & P1 & _).
    apply (rest_all s U G AR (c_pubs cfg) [] eq_refl R p (P1 t p It Ct)). exists m, t. exact I0. }
  split; [exact N|]. intros t.
  assert (Em : mine s t = []).
  { destruct (mine s t) as [|m r] eqn:E; [reflexivity|]. exfalso. assert (X : mine s t <> []) by (rewrite E; discriminate). destruct (b_mine _ (g_base _ G) t X) as [It Ct]. destruct (c_src cfg t) as [p|] eqn:Cp; [|congruence].
    apply (N p). exists m, t. apply (b_held _ (g_base _ G)). rewrite E. split; [exact It|]. split; [exact Cp|now left]. }
  unfold mine in Em. apply app_eq_nil in Em as [Eb Eq]. split; [exact Eq|]. destruct (s_task s t) as [|[m|] todo w] eqn:Et; [reflexivity|discriminate|].
  destruct (b_task _ (g_base _ G) _ _ _ _ Et) as (It & IO & MN). destruct todo as [|q todo].
  - pose proof (AR (Done t) eq_refl) as A. cbn in A. rewrite Et in A. discriminate.
  - assert (Av : available cfg q s = true).
    { unfold available. apply negb_true_iff. destruct (existsb _ (s_held s)) eqn:X; [|reflexivity]. apply existsb_exists in X as [[[q' m'] t'] [I' B]]. apply andb_true_iff in B as [B _]. apply Nat.eqb_eq in B. subst q'. destruct (N q). exists m', t'. exact I'. }
    assert (Rq : s_run s q = true) by (destruct PL as (_ & _ & _ & P2 & _); apply R, (P2 t q It), IO; now left).
    destruct w; [pose proof (AR (Wake t) eq_refl) as A|pose proof (AR (Publish t) eq_refl) as A]; cbn in A; rewrite Et, ?Rq, Av in A; discriminate.
Qed.

(** A call of sync() stays with the server until it is answered. *)
Definition Alive (i : nat) (s : state) : Prop := get i (s_calls s) = Some SYNC \/ (exists rest cur, s_lock s = Some (i, rest, cur)) \/ In i (s_synced s).

Lemma Alive_step i s l s' : Good s -> Alive i s -> step cfg s l = Some s' -> Alive i s'.
Proof.
  intros G A H. destruct A as [A|[A|A]]; [| |right; right; exact (synced_mono _ _ _ _ H A)].
  - destruct l; cbn in H; try (injection H as <-; now left).
    + destruct (s_task s t); [|discriminate]. destruct (c_src cfg t); [discriminate|]. destruct (mem t (c_tasks cfg)); [|discriminate]. injection H as <-. now left.
    + injection H as <-. left. cbn. rewrite <- put_absent; [|intros I; destruct (f_calls _ (g_fresh _ G) _ I); lia]. rewrite get_put_neq; [exact A|].
      intros ->. apply get_Some_key in A. destruct (f_calls _ (g_fresh _ G) _ A). lia.
    + destruct (s_task s t); [|discriminate]. destruct (s_queue s t); [discriminate|]. injection H as <-. now left.
    + destruct (s_task s t) as [|m [|q todo] [|]]; try discriminate. destruct (s_run s q); [|discriminate]. destruct (available cfg q s); injection H as <-; now left.
    + destruct (s_task s t) as [|m [|q todo] [|]]; try discriminate. destruct (available cfg q s); [|discriminate]. injection H as <-. now left.
    + destruct (s_task s t) as [|[m|] [|q todo] w]; try discriminate; [destruct (c_src cfg t) as [p0|]; [|discriminate]|]; injection H as <-; now left.
    + destruct (s_lock s) eqn:L; [discriminate|]. destruct (Nat.eq_dec i0 i) as [->|NE].
      * rewrite A in H. injection H as <-. right. left. cbn. eauto.
      * left. destruct (get i0 (s_calls s)) as [[]|]; [| | |discriminate]; injection H as <-; cbn; rewrite get_del_neq by congruence; exact A.
    + destruct (s_lock s) as [[[j [|q rest]] [c|]]|]; try discriminate. injection H as <-. now left.
    + destruct (s_lock s) as [[[j [|q rest]] [c|]]|]; try discriminate. injection H as <-. now left.
    + destruct (s_drain s p); [|discriminate|discriminate]. destruct (s_inbox s p) as [|[] r]; [discriminate| | |]; injection H as <-; now left.
    + destruct (s_drain s p); [discriminate|discriminate|]. destruct (s_lock s) as [[[j rest] [q|]]|]; [destruct (q =? p)| |]; injection H as <-; now left.
  - destruct A as (rest & cur & L). destruct l; cbn in H; try (injection H as <-; right; left; cbn; eauto; fail).
    + destruct (s_task s t); [|discriminate]. destruct (c_src cfg t); [discriminate|]. destruct (mem t (c_tasks cfg)); [|discriminate]. injection H as <-. right; left; cbn; eauto.
    + destruct (s_task s t); [|discriminate]. destruct (s_queue s t); [discriminate|]. injection H as <-. right; left; cbn; eauto.
    + destruct (s_task s t) as [|m [|q todo] [|]]; try discriminate. destruct (s_run s q); [|discriminate]. destruct (available cfg q s); injection H as <-; right; left; cbn; eauto.
    + destruct (s_task s t) as [|m [|q todo] [|]]; try discriminate. destruct (available cfg q s); [|discriminate]. injection H as <-. right; left; cbn; eauto.
    + destruct (s_task s t) as [|[m|] [|q todo] w]; try discriminate; [destruct (c_src cfg t) as [p0|]; [|discriminate]|]; injection H as <-; right; left; cbn; eauto.
    + rewrite L in H. discriminate.
    + rewrite L in H. destruct rest as [|q rest], cur; try discriminate. injection H as <-. right; left; cbn; eauto.
    + rewrite L in H. destruct rest as [|q rest], cur; try discriminate. injection H as <-. right; right; cbn. apply in_or_app. right. now left.
    + destruct (s_drain s p); [|discriminate|discriminate]. destruct (s_inbox s p) as [|[] r]; [discriminate| | |]; injection H as <-; right; left; cbn; eauto.
    + destruct (s_drain s p); [discriminate|discriminate|]. rewrite L in H. destruct cur as [q|]; [destruct (q =? p)|]; injection H as <-; right; left; cbn; eauto.
Qed.

Lemma Alive_steps i ls : forall s s', Good s -> Alive i s -> steps cfg s ls = Some s' -> Alive i s'.
Proof.
  induction ls as [|l ls IH]; intros s s' G A H; cbn in H; [injection H as <-; exact A|]. destruct (step cfg s l) as [s1|] eqn:E; [|discriminate].
  exact (IH s1 s' (Good_step _ _ _ G E) (Alive_step _ _ _ _ G A E) H).
Qed.

End Proofs.
