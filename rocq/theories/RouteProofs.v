(* Proofs about requests to processes. *)

From Coq Require Import List Arith Bool Lia Sorted.
From Verif Require Import RouteModel RouteSpec.
Import ListNotations.

Section Proofs.
Context (high low : nat).
Notation step := (step high low).
Notation run := (run high low).

(** ** Lists *)
Lemma nth_set {A} (l : list A) : forall i k x, nth_error (set_nth i x l) k = if k =? i then match nth_error l i with Some _ => Some x | None => None end else nth_error l k.
Proof. induction l as [|y l IH]; intros [|i] [|k] x; cbn; auto; try (destruct (k =? i); reflexivity). Qed.
Lemma nth_set_same {A} (l : list A) i x y : nth_error l i = Some y -> nth_error (set_nth i x l) i = Some x.
Proof. intros H. rewrite nth_set, Nat.eqb_refl, H. reflexivity. Qed.
Lemma nth_set_other {A} (l : list A) i k x : k <> i -> nth_error (set_nth i x l) k = nth_error l k.
Proof. intros H. rewrite nth_set. destruct (Nat.eqb_spec k i); [congruence|reflexivity]. Qed.
Lemma map_set {A B} (f : A -> B) l : forall i x, map f (set_nth i x l) = set_nth i (f x) (map f l).
Proof. induction l as [|y l IH]; intros [|i] x; cbn; auto. now rewrite IH. Qed.
Lemma length_set {A} (l : list A) : forall i x, length (set_nth i x l) = length l.
Proof. induction l as [|y l IH]; intros [|i] x; cbn; auto. Qed.
Lemma set_same {A} (l : list A) : forall i x, nth_error l i = Some x -> set_nth i x l = l.
Proof. induction l as [|y l IH]; intros [|i] x; cbn; auto; [intros [= ->]; reflexivity|]. intros H. now rewrite IH. Qed.
Lemma nth_snoc {A} (l : list A) x i : nth_error (l ++ [x]) i = if i =? length l then Some x else nth_error l i.
Proof.
  destruct (Nat.eqb_spec i (length l)) as [->|N]; [rewrite nth_error_app2, Nat.sub_diag by lia; reflexivity|].
  destruct (lt_dec i (length l)); [apply nth_error_app1; lia|]. rewrite nth_error_app2 by lia. destruct (i - length l) as [|n0] eqn:E; [lia|]. cbn. rewrite (proj2 (nth_error_None l i)) by lia. now destruct n0.
Qed.
Lemma nth_len {A} (l : list A) i x : nth_error l i = Some x -> i < length l.
Proof. intros H. apply nth_error_Some. congruence. Qed.

(** ** What matters of the tasks *)
Definition skel (t : task) : kind * pc := (knd t, at_ t).
Definition sk (s : st) : list (kind * pc) := map skel (tasks s).

Lemma sk_nth s i : nth_error (sk s) i = option_map skel (nth_error (tasks s) i).
Proof. unfold sk. apply nth_error_map. Qed.
Lemma sk_some s i t : nth_error (tasks s) i = Some t -> nth_error (sk s) i = Some (knd t, at_ t).
Proof. intros H. rewrite sk_nth, H. reflexivity. Qed.
Lemma sk_inv s i k a : nth_error (sk s) i = Some (k, a) -> exists t, nth_error (tasks s) i = Some t /\ knd t = k /\ at_ t = a.
Proof. rewrite sk_nth. destruct (nth_error (tasks s) i) as [t|]; cbn; [|discriminate]. intros [= <- <-]. eauto. Qed.

Lemma sk_set s i t : sk (set_task s i t) = set_nth i (knd t, at_ t) (sk s).
Proof. unfold sk. cbn [set_task tasks]. rewrite map_set. reflexivity. Qed.
Lemma sk_proc s p x : sk (set_proc s p x) = sk s.
Proof. reflexivity. Qed.
Lemma sk_pop s : sk (pop_c s) = sk s.
Proof. reflexivity. Qed.
Lemma sk_push s i : sk (push_c s i) = sk s.
Proof. reflexivity. Qed.

Lemma answer_skel p v t : skel (answer p v t) = skel t.
Proof. unfold answer, skel. destruct t as [[|q z d|q r w|q z|q] a b o]; cbn; auto. destruct b; reflexivity. Qed.
Lemma farewell_skel p t : skel (farewell p t) = skel t.
Proof. unfold farewell, skel. destruct t as [[|q z d|q r w|q z|q] a b o]; cbn; auto. destruct (b && (q =? p)); reflexivity. Qed.

(** ** The queues *)
Definition inc (k : kind) (a : pc) : bool :=
  match a with
  | WantLock | WantAgain => true
  | WantWrite | Draining => match k with Route _ _ _ => true | _ => false end
  | _ => false
  end.
Definition inw (p : nat) (k : kind) (a : pc) : bool :=
  match a with
  | WantWrite | Draining => match k with Route q _ _ | Rep q _ => q =? p | _ => false end
  | _ => false
  end.

(** [q] is the queue of those that [m] says, and only its head may be in another state than [w]. *)
Record qok (m : kind -> pc -> bool) (w : pc -> bool) (f : list (kind * pc)) (q : list nat) : Prop := {
  q_in : forall i, In i q <-> exists k a, nth_error f i = Some (k, a) /\ m k a = true;
  q_nd : NoDup q;
  q_tl : forall i k a, In i (tl q) -> nth_error f i = Some (k, a) -> w a = true
}.

Lemma in_tl {A} (x : A) q : In x (tl q) -> In x q.
Proof. destruct q; cbn; auto. Qed.

Lemma qok_same m w f q i k a b : qok m w f q -> nth_error f i = Some (k, a) -> m k b = m k a -> (m k b = true -> w b = true \/ first q i = true) -> qok m w (set_nth i (k, b) f) q.
Proof.
  intros [A B C] F M W. constructor; auto.
  - intros j. rewrite A. rewrite nth_set. destruct (Nat.eqb_spec j i) as [->|N]; [|reflexivity]. rewrite F. split.
    + intros (k' & a' & [= <- <-] & H). exists k, b. split; [reflexivity|congruence].
    + intros (k' & a' & [= <- <-] & H). exists k, a. split; [reflexivity|congruence].
  - intros j k' a' IN. rewrite nth_set. destruct (Nat.eqb_spec j i) as [->|N]; [|intros H; eapply C; eauto]. rewrite F. intros [= <- <-].
    assert (MB : m k b = true). { destruct (proj1 (A i) (in_tl _ _ IN)) as (k' & a' & H1 & H2). rewrite F in H1. injection H1 as <- <-. congruence. }
    destruct (W MB) as [H|H]; [exact H|]. destruct q as [|j q]; [discriminate|]. cbn in H, IN. apply Nat.eqb_eq in H. subst j. apply NoDup_cons_iff in B. tauto.
Qed.

Lemma qok_pop m w f q i k a b : qok m w f q -> first q i = true -> nth_error f i = Some (k, a) -> m k b = false -> qok m w (set_nth i (k, b) f) (tl q).
Proof.
  intros [A B C] FI F M. destruct q as [|j q]; [discriminate|]. cbn in FI. apply Nat.eqb_eq in FI. subst j. cbn [tl] in *. apply NoDup_cons_iff in B. destruct B as (B1 & B2). constructor; auto.
  - intros j. rewrite nth_set. destruct (Nat.eqb_spec j i) as [->|N].
    + rewrite F. split; [tauto|]. intros (k' & a' & [= <- <-] & H). congruence.
    + rewrite <- A. cbn. split; [auto|]. intros [H|H]; [congruence|exact H].
  - intros j k' a' IN. rewrite nth_set. destruct (Nat.eqb_spec j i) as [->|N]; [apply in_tl in IN; tauto|]. apply C. apply in_tl in IN. exact IN.
Qed.

Lemma qok_push m w f q i k a b : qok m w f q -> nth_error f i = Some (k, a) -> m k a = false -> m k b = true -> w b = true -> qok m w (set_nth i (k, b) f) (q ++ [i]).
Proof.
  intros [A B C] F M MB W. assert (NI : ~ In i q). { intros H. apply A in H. destruct H as (k' & a' & H1 & H2). rewrite F in H1. injection H1 as <- <-. congruence. }
  constructor.
  - intros j. rewrite in_app_iff, A, nth_set. cbn. destruct (Nat.eqb_spec j i) as [->|N].
    + rewrite F. split; [eauto|auto].
    + split; [intros [H|[H|[]]]; [exact H|congruence]|auto].
  - apply NoDup_rev in B. rewrite <- (rev_involutive (q ++ [i])). apply NoDup_rev. rewrite rev_app_distr. cbn. constructor; [rewrite <- in_rev; exact NI|exact B].
  - intros j k' a' IN. rewrite nth_set. destruct (Nat.eqb_spec j i) as [->|N]; [rewrite F; intros [= <- <-]; exact W|]. apply C.
    destruct q as [|j0 q]; cbn in IN; [destruct IN|]. apply in_app_or in IN. destruct IN as [IN|[IN|[]]]; [exact IN|congruence].
Qed.

Lemma qok_new m w f q k b : qok m w f q -> m k b = true -> w b = true -> qok m w (f ++ [(k, b)]) (q ++ [length f]).
Proof.
  intros [A B C] MB W. assert (NI : ~ In (length f) q). { intros H. apply A in H. destruct H as (k' & a' & H1 & H2). apply nth_len in H1. lia. }
  constructor.
  - intros j. rewrite in_app_iff, A, nth_snoc. cbn. destruct (Nat.eqb_spec j (length f)) as [->|N].
    + split; [eauto|auto].
    + split; [intros [H|[H|[]]]; [exact H|congruence]|auto].
  - apply NoDup_rev in B. rewrite <- (rev_involutive (q ++ [_])). apply NoDup_rev. rewrite rev_app_distr. cbn. constructor; [rewrite <- in_rev; exact NI|exact B].
  - intros j k' a' IN. rewrite nth_snoc. destruct (Nat.eqb_spec j (length f)) as [->|N]; [intros [= <- <-]; exact W|]. apply C.
    destruct q as [|j0 q]; cbn in IN; [destruct IN|]. apply in_app_or in IN. destruct IN as [IN|[IN|[]]]; [exact IN|congruence].
Qed.

Lemma qok_add m w f q k b : qok m w f q -> m k b = false -> qok m w (f ++ [(k, b)]) q.
Proof.
  intros [A B C] MB. assert (NI : ~ In (length f) q). { intros H. apply A in H. destruct H as (k' & a' & H1 & H2). apply nth_len in H1. lia. }
  constructor; auto.
  - intros j. rewrite A, nth_snoc. destruct (Nat.eqb_spec j (length f)) as [->|N]; [|reflexivity]. rewrite (proj2 (nth_error_None f (length f))) by lia.
    split; [intros (k' & a' & H & _); discriminate|intros (k' & a' & [= <- <-] & H); congruence].
  - intros j k' a' IN. rewrite nth_snoc. destruct (Nat.eqb_spec j (length f)) as [->|N]; [apply in_tl in IN; tauto|]. apply C. exact IN.
Qed.

Definition wc (a : pc) : bool := match a with WantLock | WantAgain => true | _ => false end.
Definition ww (a : pc) : bool := match a with WantWrite => true | _ => false end.

Definition good (n : nat) (k : kind) (a : pc) : Prop :=
  match k with
  | Cmd => a = WantLock \/ exists o, a = Done o
  | Route p _ _ => a = WantWrite \/ a = Draining -> p < n
  | Resp p _ _ | Bye p => p < n /\ (a = WantLock \/ exists o, a = Done o)
  | Rep p _ => p < n /\ a <> WantAgain /\ forall d, a <> Awaiting d
  end.

Record inv (s : st) : Prop := {
  v_c : qok inc wc (sk s) (cq s);
  v_w : forall p x, nth_error (procs s) p = Some x -> qok (inw p) ww (sk s) (wq x);
  v_g : forall i k a, nth_error (sk s) i = Some (k, a) -> good (length (procs s)) k a
}.

Lemma inv_init : inv init.
Proof.
  constructor.
  - constructor; cbn; [|constructor|intros i k a []]. intros i. split; [intros []|]. intros (k & a & H & _). destruct i; discriminate.
  - intros p x H. destruct p; discriminate.
  - intros i k a H. destruct i; discriminate.
Qed.

Lemma good_mono n m k a : n <= m -> good n k a -> good m k a.
Proof. intros L. destruct k; cbn; auto; try (intros (A & B); split; [lia|exact B]). intros H A. specialize (H A). lia. Qed.

(** Changing the state of a task, with all that this does to the queues. *)
Lemma inv_set s s' i k a b : inv s -> nth_error (sk s) i = Some (k, a) -> sk s' = set_nth i (k, b) (sk s) -> length (procs s) <= length (procs s') -> good (length (procs s')) k b ->
  qok inc wc (sk s') (cq s') -> (forall p x', nth_error (procs s') p = Some x' -> qok (inw p) ww (sk s') (wq x')) -> inv s'.
Proof.
  intros I F E L G C W. constructor; auto. intros j k' a'. rewrite E, nth_set. destruct (Nat.eqb_spec j i) as [->|N]; [rewrite F; intros [= <- <-]; exact G|].
  intros H. eapply good_mono; [exact L|]. eapply (v_g _ I); eauto.
Qed.

(** The write queues are unchanged if neither state is at the write lock. *)
Lemma wq_keep s s' i k a b : inv s -> nth_error (sk s) i = Some (k, a) -> sk s' = set_nth i (k, b) (sk s) -> (forall p, inw p k b = inw p k a) -> (b = WantWrite \/ forall p, inw p k b = false) ->
  (forall p x', nth_error (procs s') p = Some x' -> exists x, nth_error (procs s) p = Some x /\ wq x' = wq x) ->
  forall p x', nth_error (procs s') p = Some x' -> qok (inw p) ww (sk s') (wq x').
Proof.
  intros I F E M B P p x' H. destruct (P p x' H) as (x & H1 & ->). rewrite E. eapply qok_same; eauto; [apply (v_w _ I); auto|]. intros MB. left. destruct B as [->|B]; [reflexivity|]. rewrite B in MB. discriminate.
Qed.

Lemma spawn_sk s k : sk (spawn s k) = sk s ++ [(k, WantLock)].
Proof. unfold sk, spawn. cbn. rewrite map_app. reflexivity. Qed.
Lemma spawn_inv s k : inv s -> good (length (procs s)) k WantLock -> inv (spawn s k).
Proof.
  intros [A B C] G. constructor.
  - rewrite spawn_sk. cbn [spawn push_c cq]. replace (length (tasks s)) with (length (sk s)) by apply map_length. apply qok_new; auto.
  - intros p x H. rewrite spawn_sk. apply qok_add; [apply B, H|reflexivity].
  - intros i k' a. rewrite spawn_sk, nth_snoc. destruct (Nat.eqb_spec i (length (sk s))) as [->|N]; [intros [= <- <-]; exact G|]. apply C.
Qed.

(** Changing a process without changing its queue. *)
Lemma proc_inv s p x x' : inv s -> nth_error (procs s) p = Some x -> wq x' = wq x -> inv (set_proc s p x').
Proof.
  intros [A B C] H E. constructor; auto.
  - intros q y. cbn [set_proc procs]. rewrite nth_set. destruct (Nat.eqb_spec q p) as [->|N]; [rewrite H; intros [= <-]; rewrite E; apply B, H|apply B].
  - cbn [set_proc procs]. rewrite length_set. exact C.
Qed.

Lemma first_in q i : first q i = true -> In i q.
Proof. destruct q as [|j q]; cbn; [discriminate|]. intros H. apply Nat.eqb_eq in H. auto. Qed.

(** A task at the write lock with its turn holds the command lock too, if it is a request. *)
Lemma holder s i t : inv s -> nth_error (tasks s) i = Some t -> (at_ t = WantWrite \/ at_ t = Draining) -> (exists p z d, knd t = Route p z d) -> first (cq s) i = true.
Proof.
  intros I F A (p & z & d & K). destruct (v_c _ I) as [C1 C2 C3]. pose proof (sk_some _ _ _ F) as F'. assert (IN : In i (cq s)). { apply C1. exists (knd t), (at_ t). split; [exact F'|]. rewrite K. destruct A as [->| ->]; reflexivity. }
  destruct (cq s) as [|j q]; [destruct IN|]. cbn. destruct (Nat.eqb_spec i j); [reflexivity|]. destruct IN as [IN|IN]; [congruence|]. specialize (C3 i _ _ IN F'). destruct A as [A|A]; rewrite A in C3; discriminate.
Qed.

Lemma leave_sk s i t p x : sk (leave s i t p x) = set_nth i (knd t, match knd t with Route _ _ tmo => if gone x then Done WriteFailed else Awaiting (now s + tmo) | _ => Done (if gone x then WriteFailed else Ok) end) (sk s).
Proof. unfold leave. destruct (knd t) eqn:K; try (rewrite sk_set, sk_proc; cbn [set_at knd at_]; rewrite K; reflexivity). destruct (gone x); rewrite sk_pop, sk_set, sk_proc; cbn [set_at knd at_]; rewrite ?K; reflexivity. Qed.

Lemma leave_inv s i t p x0 x : inv s -> nth_error (tasks s) i = Some t -> (at_ t = WantWrite \/ at_ t = Draining) -> target t = p -> nth_error (procs s) p = Some x0 -> wq x = wq x0 -> first (wq x0) i = true -> inv (leave s i t p x).
Proof.
  intros I F A T P WX FI. pose proof (sk_some _ _ _ F) as F'. destruct (v_w _ I _ _ P) as [W1 W2 W3].
  assert (KK : (exists z d, knd t = Route p z d) \/ exists z, knd t = Rep p z).
  { apply first_in, W1 in FI. destruct FI as (k & a & H1 & H2). rewrite F' in H1. injection H1 as <- <-. unfold target in T. destruct A as [A|A]; rewrite A in H2; cbn in H2; destruct (knd t); try discriminate; subst; eauto. }
  eapply inv_set; [exact I|exact F'|apply leave_sk| | | |].
  - unfold leave. destruct (knd t); try destruct (gone x); cbn; rewrite length_set; lia.
  - destruct KK as [(z & d & ->)|(z & ->)]; destruct (gone x); cbn.
    + intros [?|?]; discriminate.
    + intros [?|?]; discriminate.
    + pose proof (v_g _ I _ _ _ F'). split; [|split; [discriminate|discriminate]]. unfold leave. destruct (knd t); try destruct (gone x); cbn; rewrite length_set; apply nth_len in P; lia.
    + split; [|split; [discriminate|discriminate]]. unfold leave. destruct (knd t); try destruct (gone x); cbn; rewrite length_set; apply nth_len in P; lia.
  - rewrite leave_sk. destruct KK as [(z & d & K)|(z & K)].
    + assert (E : cq (leave s i t p x) = tl (cq s)) by (unfold leave; rewrite K; destruct (gone x); reflexivity). rewrite E.
      eapply qok_pop; [exact (v_c _ I)| |exact F'|]; [eapply holder; eauto|]. rewrite K. destruct (gone x); reflexivity.
    + assert (E : cq (leave s i t p x) = cq s) by (unfold leave; rewrite K; reflexivity). rewrite E. eapply qok_same; [exact (v_c _ I)|exact F'| |]; rewrite K; [destruct A as [->| ->]; reflexivity|discriminate].
  - intros q y. rewrite leave_sk. assert (E : procs (leave s i t p x) = set_nth p (set_wq x (tl (wq x))) (procs s)) by (unfold leave; destruct (knd t); try destruct (gone x); reflexivity). rewrite E, nth_set.
    destruct (Nat.eqb_spec q p) as [->|N].
    + rewrite P. intros [= <-]. cbn [set_wq wq]. rewrite WX. eapply qok_pop; [exact (v_w _ I _ _ P)|exact FI|exact F'|]. destruct KK as [(z & d & ->)|(z & ->)]; destruct (gone x); reflexivity.
    + intros H. eapply qok_same; [apply (v_w _ I); eauto|exact F'| |].
      * assert (Z : inw q (knd t) (at_ t) = false). { destruct KK as [(z & d & ->)|(z & ->)]; destruct A as [->| ->]; cbn; apply Nat.eqb_neq; auto. } rewrite Z. destruct KK as [(z & d & ->)|(z & ->)]; destruct (gone x); reflexivity.
      * destruct KK as [(z & d & ->)|(z & ->)]; destruct (gone x); discriminate.
Qed.

Lemma farewell_inv s p : inv s -> inv (mkSt (now s) (procs s) (map (farewell p) (tasks s)) (cq s)).
Proof.
  intros [V1 V2 V3]. assert (E : sk (mkSt (now s) (procs s) (map (farewell p) (tasks s)) (cq s)) = sk s). { unfold sk. cbn [tasks]. rewrite map_map. apply map_ext. apply farewell_skel. }
  constructor; rewrite ?E; auto.
Qed.

Lemma enter_inv s i t s' : inv s -> nth_error (tasks s) i = Some t -> first (cq s) i = true -> enter s i t = Some s' -> inv s'.
Proof.
  intros I F FI EN. pose proof (sk_some _ _ _ F) as F'. pose proof (v_g _ I _ _ _ F') as G. unfold enter in EN.
  assert (FIN : forall s' b, sk s' = set_nth i (knd t, b) (sk s) -> cq s' = tl (cq s) -> procs s' = procs s -> (forall p, inw p (knd t) (at_ t) = false) -> (exists o, b = Done o) -> inv s').
  { intros u b E1 E2 E3 E4 (o & ->). eapply inv_set; [exact I|exact F'|exact E1|rewrite E3; lia| | |].
    - rewrite E3. destruct (knd t); cbn in *; [eauto|intros [?|?]; discriminate|split; [apply G|eauto]|split; [apply G|split; discriminate]|split; [apply G|eauto]].
    - rewrite E1, E2. eapply qok_pop; [exact (v_c _ I)|exact FI|exact F'|reflexivity].
    - eapply wq_keep; [exact I|exact F'|exact E1|intros p; rewrite E4; reflexivity|right; reflexivity|]. intros p x'. rewrite E3. eauto. }
  destruct (knd t) as [|p z d|p r v|p z|p] eqn:K; destruct (at_ t) eqn:A; try discriminate.
  - injection EN as <-. eapply FIN; [rewrite sk_pop, sk_set; cbn [set_at knd at_]; rewrite ?K; reflexivity|reflexivity|reflexivity|reflexivity|eauto].
  - assert (UN : inv (pop_c (set_task s i (set_at t (Done Unroutable))))). { eapply FIN; [rewrite sk_pop, sk_set; cbn [set_at knd at_]; rewrite ?K; reflexivity|reflexivity|reflexivity|reflexivity|eauto]. }
    destruct (nth_error (procs s) p) as [x|] eqn:P; [|injection EN as <-; exact UN]. destruct (listed x); [|injection EN as <-; exact UN]. injection EN as <-. clear UN FIN.
    eapply inv_set; [exact I|exact F'|rewrite sk_proc, sk_set; cbn [knd at_]; rewrite ?K; reflexivity|cbn; rewrite length_set; lia| | |].
    + cbn. rewrite length_set. intros _. eapply nth_len; eauto.
    + rewrite sk_proc, sk_set. cbn [knd at_]. rewrite ?K. eapply qok_same; [exact (v_c _ I)|exact F'|reflexivity|auto].
    + intros q y. cbn [set_proc set_task procs]. rewrite sk_proc, sk_set, nth_set. cbn [knd at_]. rewrite ?K. destruct (Nat.eqb_spec q p) as [->|N].
      * rewrite P. intros [= <-]. cbn [set_wq wq]. eapply qok_push; [exact (v_w _ I _ _ P)|exact F'|reflexivity|cbn; apply Nat.eqb_refl|reflexivity].
      * intros H. eapply qok_same; [exact (v_w _ I _ _ H)|exact F'|cbn; apply Nat.eqb_neq; auto|]. cbn. intros Z. apply Nat.eqb_eq in Z. congruence.
  - injection EN as <-. eapply FIN; [rewrite sk_pop, sk_set; cbn [knd at_]; rewrite ?K; reflexivity|reflexivity|reflexivity|reflexivity|eauto].
  - set (s1 := pop_c (set_task s i (set_at t (Done Ok)))) in *. assert (S1 : inv s1). { eapply FIN; [unfold s1; rewrite sk_pop, sk_set; cbn [set_at knd at_]; rewrite ?K; reflexivity|reflexivity|reflexivity|reflexivity|eauto]. }
    destruct (nth_error (tasks s1) r) as [q|] eqn:R; [|injection EN as <-; exact S1]. injection EN as <-.
    assert (E : sk (set_task s1 r (answer p v q)) = sk s1). { rewrite sk_set. pose proof (answer_skel p v q) as Z. unfold skel in Z. rewrite Z. apply set_same. apply sk_some. exact R. }
    destruct S1 as [V1 V2 V3]. constructor; rewrite ?E; auto; try (intros p0 x0 H0; rewrite E; exact (V2 _ _ H0)).
  - destruct (nth_error (procs s) p) as [x|] eqn:P; [|discriminate]. injection EN as <-. clear FIN.
    assert (E : sk (set_proc (pop_c (set_task s i (set_at t WantWrite))) p (set_wq x (wq x ++ [i]))) = set_nth i (Rep p z, WantWrite) (sk s)) by (rewrite sk_proc, sk_pop, sk_set; cbn [set_at knd at_]; rewrite ?K; reflexivity).
    eapply inv_set; [exact I|exact F'|exact E|cbn; rewrite length_set; lia| | |].
    + cbn. rewrite length_set. split; [eapply nth_len; eauto|split; discriminate].
    + rewrite E. cbn [set_proc pop_c set_task cq]. eapply qok_pop; [exact (v_c _ I)|exact FI|exact F'|reflexivity].
    + intros q y. cbn [set_proc pop_c set_task procs]. rewrite E, nth_set. destruct (Nat.eqb_spec q p) as [->|N].
      * rewrite P. intros [= <-]. cbn [set_wq wq]. eapply qok_push; [exact (v_w _ I _ _ P)|exact F'|reflexivity|cbn; apply Nat.eqb_refl|reflexivity].
      * intros H. eapply qok_same; [exact (v_w _ I _ _ H)|exact F'|cbn; apply Nat.eqb_neq; auto|]. cbn. intros Z. apply Nat.eqb_eq in Z. congruence.
  - destruct (nth_error (procs s) p) as [x|] eqn:P; [|discriminate]. injection EN as <-.
    set (s1 := pop_c (set_task s i (set_at t (Done Ok)))) in *. assert (S1 : inv s1). { eapply FIN; [unfold s1; rewrite sk_pop, sk_set; cbn [set_at knd at_]; rewrite ?K; reflexivity|reflexivity|reflexivity|reflexivity|eauto]. }
    eapply (proc_inv _ p x); [|exact P|reflexivity].
    exact (farewell_inv s1 p S1).
Qed.

Lemma step_inv s a s' : inv s -> step s a = Some s' -> inv s'.
Proof.
  intros I ST. destruct a as [| |k|p r v|p z|p n|p|i|i|i|i|i|p]; cbn [RouteModel.step] in ST.
  - injection ST as <-. destruct I as [A B C]. constructor; auto.
  - injection ST as <-. destruct I as [A B C]. constructor; auto.
    + intros p x. cbn [procs]. rewrite nth_snoc. destruct (Nat.eqb_spec p (length (procs s))) as [->|N]; [|apply B]. intros [= <-]. cbn. constructor; [|constructor|intros i k a []].
      intros i. split; [intros []|]. intros (k & a & H1 & H2). specialize (C _ _ _ H1). destruct a; try discriminate; destruct k; try discriminate; cbn in H2; apply Nat.eqb_eq in H2; subst; cbn in C; try (specialize (C ltac:(auto))); lia.
    + intros i k a H. cbn [procs]. eapply good_mono; [|eapply C; eauto]. rewrite app_length. lia.
  - destruct k; try discriminate; injection ST as <-; apply spawn_inv; auto; cbn; auto. intros [?|?]; discriminate.
  - destruct (nth_error (procs s) p) as [x|] eqn:P; [|discriminate]. destruct (negb (leaving x) && idle s p); [|discriminate]. injection ST as <-. apply spawn_inv; auto. cbn. split; [eapply nth_len; eauto|auto].
  - destruct (nth_error (procs s) p) as [x|] eqn:P; [|discriminate]. destruct (negb (leaving x) && idle s p); [|discriminate]. injection ST as <-. apply spawn_inv; auto. cbn. split; [eapply nth_len; eauto|split; discriminate].
  - destruct (nth_error (procs s) p) as [x|] eqn:P; [|discriminate]. destruct (negb (gone x) && (n <=? buf x)); [|discriminate]. injection ST as <-. eapply proc_inv; eauto.
  - destruct (nth_error (procs s) p) as [x|] eqn:P; [|discriminate]. injection ST as <-. eapply proc_inv; eauto.
  - destruct (nth_error (tasks s) i) as [t|] eqn:F; [|discriminate]. destruct (first (cq s) i) eqn:FI; [|discriminate]. eapply enter_inv; eauto.
  - destruct (nth_error (tasks s) i) as [t|] eqn:F; [|discriminate]. destruct (at_ t) eqn:A; try discriminate. unfold write in ST. destruct (nth_error (procs s) (target t)) as [x|] eqn:P; [|discriminate].
    destruct (first (wq x) i) eqn:FI; [|discriminate].
    set (x1 := if gone x then x else set_buf x (buf x + size_of t)) in *. assert (WX : wq x1 = wq x) by (unfold x1; destruct (gone x); reflexivity).
    cbv zeta in ST. destruct (gone x1 || (buf x1 <=? high)); injection ST as <-.
    + eapply leave_inv; eauto.
    + pose proof (sk_some _ _ _ F) as F'.
      assert (E : sk (set_task (set_proc s (target t) x1) i (set_at t Draining)) = set_nth i (knd t, Draining) (sk s)) by (rewrite sk_set; reflexivity).
      eapply inv_set; [exact I|exact F'|exact E|cbn; rewrite length_set; lia| | |].
      * pose proof (v_g _ I _ _ _ F') as G. rewrite A in G. cbn [set_task set_proc procs]. rewrite length_set. destruct (knd t); cbn in *; auto.
        -- destruct G as [?|(? & ?)]; discriminate.
        -- destruct G as (? & [?|(? & ?)]); discriminate.
        -- destruct G as (? & ? & ?). repeat split; auto; discriminate.
        -- destruct G as (? & [?|(? & ?)]); discriminate.
      * rewrite E. cbn [set_task set_proc cq]. eapply qok_same; [exact (v_c _ I)|exact F'|rewrite A; reflexivity|]. intros Z. right. eapply holder; eauto. cbn in Z. destruct (knd t); try discriminate. eauto.
      * intros q y. cbn [set_task set_proc procs]. rewrite E, nth_set. destruct (Nat.eqb_spec q (target t)) as [->|N].
        -- rewrite P. intros [= <-]. rewrite WX. eapply qok_same; [exact (v_w _ I _ _ P)|exact F'|rewrite A; reflexivity|]. auto.
        -- intros H. eapply qok_same; [exact (v_w _ I _ _ H)|exact F'|rewrite A; reflexivity|]. intros Z. exfalso. unfold target in N. cbn in Z. destruct (knd t); try discriminate; apply Nat.eqb_eq in Z; congruence.
  - destruct (nth_error (tasks s) i) as [t|] eqn:F; [|discriminate]. destruct (at_ t) eqn:A; try discriminate. destruct (nth_error (procs s) (target t)) as [x|] eqn:P; [|discriminate]. destruct (gone x || (buf x <=? low)); [|discriminate]. injection ST as <-.
    eapply leave_inv; eauto. destruct (v_w _ I _ _ P) as [W1 W2 W3]. pose proof (sk_some _ _ _ F) as F'. pose proof (v_g _ I _ _ _ F') as G. rewrite A in G.
    assert (IN : In i (wq x)). { apply W1. exists (knd t), (at_ t). split; [exact F'|]. rewrite A. unfold target. cbn. destruct (knd t); cbn in G; try apply Nat.eqb_refl; exfalso; [destruct G as [?|(? & ?)]|destruct G as (? & [?|(? & ?)])|destruct G as (? & [?|(? & ?)])]; discriminate. }
    destruct (wq x) as [|j q]; [destruct IN|]. cbn. destruct (Nat.eqb_spec i j); [reflexivity|]. destruct IN as [IN|IN]; [congruence|]. specialize (W3 i _ _ IN F'). rewrite A in W3. discriminate.
  - destruct (nth_error (tasks s) i) as [t|] eqn:F; [|discriminate]. destruct (at_ t) as [| | |d| |] eqn:A; try discriminate. destruct (res t); [discriminate|]. destruct (d <=? now s); [|discriminate]. injection ST as <-.
    pose proof (sk_some _ _ _ F) as F'. pose proof (v_g _ I _ _ _ F') as G. rewrite A in *.
    assert (E : sk (push_c (set_task s i (set_at t WantAgain)) i) = set_nth i (knd t, WantAgain) (sk s)) by (rewrite sk_push, sk_set; reflexivity).
    eapply inv_set; [exact I|exact F'|exact E|cbn; lia| | |].
    + cbn [push_c set_task procs]. destruct (knd t); cbn in *; [destruct G as [?|(? & ?)]; discriminate|intros [?|?]; discriminate|destruct G as (? & [?|(? & ?)]); discriminate|destruct G as (? & ? & G); destruct (G d eq_refl)|destruct G as (? & [?|(? & ?)]); discriminate].
    + rewrite E. cbn [push_c set_task cq]. eapply qok_push; [exact (v_c _ I)|exact F'|reflexivity|reflexivity|reflexivity].
    + eapply wq_keep; [exact I|exact F'|exact E|reflexivity|right; reflexivity|]. intros p x' H. exists x'. auto.
  - destruct (nth_error (tasks s) i) as [t|] eqn:F; [|discriminate]. destruct (at_ t) as [| | |d| |] eqn:A; try discriminate. destruct (res t) as [o|]; [|discriminate]. injection ST as <-.
    pose proof (sk_some _ _ _ F) as F'. pose proof (v_g _ I _ _ _ F') as G. rewrite A in *.
    assert (E : sk (set_task s i (set_at t (Done o))) = set_nth i (knd t, Done o) (sk s)) by (rewrite sk_set; reflexivity).
    eapply inv_set; [exact I|exact F'|exact E|cbn; lia| | |].
    + cbn [set_task procs]. destruct (knd t); cbn in *; [eauto|intros [?|?]; discriminate|split; [apply G|eauto]|split; [apply G|split; discriminate]|split; [apply G|eauto]].
    + rewrite E. cbn [set_task cq]. eapply qok_same; [exact (v_c _ I)|exact F'|reflexivity|discriminate].
    + eapply wq_keep; [exact I|exact F'|exact E|reflexivity|right; reflexivity|]. intros p x' H. exists x'. auto.
  - destruct (nth_error (procs s) p) as [x|] eqn:P; [|discriminate]. destruct (gone x && negb (leaving x) && idle s p); [|discriminate]. injection ST as <-. apply spawn_inv; [eapply proc_inv; eauto|]. cbn. rewrite length_set. split; [eapply nth_len; eauto|auto].
Qed.

Lemma run_inv l : forall s s', inv s -> run s l = Some s' -> inv s'.
Proof.
  induction l as [|a l IH]; intros s s' I R; cbn [RouteModel.run] in R; [now injection R as <-|]. destruct (step s a) as [s1|] eqn:SS; [|discriminate]. eapply IH; [eapply step_inv; eauto|exact R].
Qed.
Lemma run_app l1 l2 s : run s (l1 ++ l2) = match run s l1 with Some s1 => run s1 l2 | None => None end.
Proof. revert s. induction l1 as [|a l1 IH]; intros s; cbn; [reflexivity|]. destruct (step s a); auto. Qed.

(** ** What a move of the server does *)
Inductive trans (n : nat) : kind -> pc -> pc -> Prop :=
| t_w1 p z d : trans n (Route p z d) WantLock WantWrite
| t_w2 p z : trans n (Rep p z) WantLock WantWrite
| t_end k a o : (forall o', a <> Done o') -> trans n k a (Done o)
| t_dr k : trans n k WantWrite Draining
| t_aw p z d a : a = WantWrite \/ a = Draining -> trans n (Route p z d) a (Awaiting (n + d))
| t_again k d : d <= n -> trans n k (Awaiting d) WantAgain.

Definition ksize (k : kind) : nat := match k with Route _ z _ | Rep _ z => z | _ => 0 end.
Definition ktarget (k : kind) : nat := match k with Route p _ _ | Rep p _ => p | _ => 0 end.

Record moved (s s' : st) (i : nat) (k : kind) (a b : pc) : Prop := {
  m_was : nth_error (sk s) i = Some (k, a);
  m_sk : sk s' = set_nth i (k, b) (sk s);
  m_now : now s' = now s;
  m_tr : trans (now s) k a b;
  m_len : length (procs s') = length (procs s);
  m_pr : forall p x, nth_error (procs s) p = Some x -> exists x', nth_error (procs s') p = Some x' /\ gone x' = gone x /\ leaving x' = leaving x /\
           (buf x' = buf x \/ (a = WantWrite /\ ktarget k = p /\ buf x' = buf x + ksize k)) /\
           (b = Draining -> ktarget k = p -> high < buf x');
  m_cq : cq s' = cq s \/ cq s' = tl (cq s) \/ (cq s' = cq s ++ [i] /\ b = WantAgain)
}.
Record spawned (s s' : st) (k : kind) : Prop := {
  n_sk : sk s' = sk s ++ [(k, WantLock)];
  n_now : now s' = now s;
  n_cq : cq s' = cq s ++ [length (sk s)]
}.

Lemma leave_moved s i t p x0 x : inv s -> nth_error (tasks s) i = Some t -> (at_ t = WantWrite \/ at_ t = Draining) -> target t = p -> nth_error (procs s) p = Some x0 ->
  gone x = gone x0 -> leaving x = leaving x0 -> (buf x = buf x0 \/ (at_ t = WantWrite /\ buf x = buf x0 + size_of t)) -> exists b, moved s (leave s i t p x) i (knd t) (at_ t) b.
Proof.
  intros I F A T P G L B. eexists. constructor; [apply sk_some, F|apply leave_sk| | | | |].
  - unfold leave. destruct (knd t); try destruct (gone x); reflexivity.
  - assert (ND : forall o, at_ t <> Done o) by (intros o; destruct A as [->| ->]; discriminate). destruct (knd t); try (apply t_end, ND). destruct (gone x); [apply t_end, ND|apply t_aw, A].
  - unfold leave. destruct (knd t); try destruct (gone x); cbn; apply length_set.
  - intros q y H. assert (E : procs (leave s i t p x) = set_nth p (set_wq x (tl (wq x))) (procs s)) by (unfold leave; destruct (knd t); try destruct (gone x); reflexivity). rewrite E, nth_set.
    destruct (Nat.eqb_spec q p) as [->|N].
    + rewrite P. rewrite P in H. injection H as <-. eexists. split; [reflexivity|]. cbn [set_wq gone leaving buf]. split; [exact G|]. split; [exact L|]. split.
      * destruct B as [B|(B1 & B2)]; [left; exact B|right]. auto.
      * destruct (knd t); try discriminate. destruct (gone x); discriminate.
    + exists y. repeat (split; [auto; fail|]). intros Z. destruct (knd t); try discriminate. destruct (gone x); discriminate.
  - unfold leave. destruct (knd t); try destruct (gone x); cbn; auto.
Qed.

Lemma set_moved s s' i t b : nth_error (tasks s) i = Some t -> sk s' = set_nth i (knd t, b) (sk s) -> now s' = now s -> trans (now s) (knd t) (at_ t) b -> length (procs s') = length (procs s) -> b <> Draining ->
  (forall p x, nth_error (procs s) p = Some x -> exists x', nth_error (procs s') p = Some x' /\ gone x' = gone x /\ leaving x' = leaving x /\ buf x' = buf x) -> (cq s' = cq s \/ cq s' = tl (cq s) \/ (cq s' = cq s ++ [i] /\ b = WantAgain)) -> moved s s' i (knd t) (at_ t) b.
Proof.
  intros F E N T L ND P Q. constructor; auto; [apply sk_some, F|]. intros p x H. destruct (P p x H) as (x' & A & B & C & D). exists x'. repeat (split; [auto; fail|]). congruence.
Qed.

Lemma own_moves s a s' : inv s -> step s a = Some s' -> own a = true ->
  (exists i k b c, moved s s' i k b c) \/
  (exists p x, a = Notice p /\ nth_error (procs s) p = Some x /\ leaving x = false /\ gone x = true /\ spawned s s' (Bye p) /\ procs s' = set_nth p (mkProc true true (listed x) (buf x) (wq x)) (procs s)).
Proof.
  intros I ST OW. destruct a as [| |k|p r v|p z|p n|p|i|i|i|i|i|p]; try discriminate OW; cbn [RouteModel.step] in ST.
  - destruct (nth_error (tasks s) i) as [t|] eqn:F; [|discriminate]. destruct (first (cq s) i); [|discriminate]. left. unfold enter in ST. exists i, (knd t), (at_ t).
    assert (SAME : forall p x, nth_error (procs s) p = Some x -> exists x', nth_error (procs s) p = Some x' /\ gone x' = gone x /\ leaving x' = leaving x /\ buf x' = buf x) by eauto 8.
    assert (SETP : forall q y y', nth_error (procs s) q = Some y -> gone y' = gone y -> leaving y' = leaving y -> buf y' = buf y -> forall p x, nth_error (procs s) p = Some x -> exists x', nth_error (set_nth q y' (procs s)) p = Some x' /\ gone x' = gone x /\ leaving x' = leaving x /\ buf x' = buf x).
    { intros q y y' Q G1 G2 G3 p x H. rewrite nth_set. destruct (Nat.eqb_spec p q) as [->|N]; [|eauto 8]. rewrite Q. rewrite Q in H. injection H as <-. eauto 8. }
    destruct (knd t) as [|p z d|p r v|p z|p] eqn:K; destruct (at_ t) eqn:A; try discriminate.
    + injection ST as <-. exists (Done Ok). rewrite <- K, <- A. apply set_moved; auto; [apply sk_set|rewrite A; constructor; discriminate|discriminate].
    + assert (UN : moved s (pop_c (set_task s i (set_at t (Done Unroutable)))) i (Route p z d) WantLock (Done Unroutable)). { rewrite <- K, <- A. apply set_moved; auto; [apply sk_set|rewrite A; constructor; discriminate|discriminate]. }
      destruct (nth_error (procs s) p) as [x|] eqn:P; [|injection ST as <-; eauto]. destruct (listed x); [|injection ST as <-; eauto]. injection ST as <-. exists WantWrite. rewrite <- K, <- A. apply set_moved; auto.
      * rewrite sk_proc, sk_set. cbn [knd at_]. rewrite K. reflexivity.
      * rewrite A, K. constructor.
      * cbn. apply length_set.
      * discriminate.
      * cbn [set_proc set_task procs]. eapply SETP; eauto.
    + injection ST as <-. exists (Done TimedOut). rewrite <- K, <- A. apply set_moved; auto; [rewrite sk_pop, sk_set; cbn; rewrite K; reflexivity|rewrite A; constructor; discriminate|discriminate].
    + exists (Done Ok). rewrite <- K, <- A. set (s1 := pop_c (set_task s i (set_at t (Done Ok)))) in *.
      destruct (nth_error (tasks s1) r) as [q|] eqn:R; injection ST as <-.
      * apply set_moved; auto; [|rewrite A; constructor; discriminate|discriminate].
        assert (E : sk (set_task s1 r (answer p v q)) = sk s1). { rewrite sk_set. pose proof (answer_skel p v q) as Z. unfold skel in Z. rewrite Z. apply set_same. apply sk_some. exact R. } rewrite E. apply sk_set.
      * apply set_moved; auto; [apply sk_set|rewrite A; constructor; discriminate|discriminate].
    + destruct (nth_error (procs s) p) as [x|] eqn:P; [|discriminate]. injection ST as <-. exists WantWrite. rewrite <- K, <- A. apply set_moved; auto.
      * rewrite sk_proc, sk_pop, sk_set. reflexivity.
      * rewrite A, K. constructor.
      * cbn. apply length_set.
      * discriminate.
      * cbn [set_proc pop_c set_task procs]. eapply SETP; eauto.
    + destruct (nth_error (procs s) p) as [x|] eqn:P; [|discriminate]. injection ST as <-. exists (Done Ok). rewrite <- K, <- A. apply set_moved; auto.
      * unfold sk. cbn [set_proc pop_c set_task tasks]. rewrite map_map. rewrite (map_ext _ skel) by apply farewell_skel. rewrite map_set. reflexivity.
      * rewrite A. constructor. discriminate.
      * cbn. apply length_set.
      * discriminate.
      * cbn [set_proc pop_c set_task procs]. eapply SETP; eauto.
  - destruct (nth_error (tasks s) i) as [t|] eqn:F; [|discriminate]. destruct (at_ t) eqn:A; try discriminate. unfold write in ST. destruct (nth_error (procs s) (target t)) as [x|] eqn:P; [|discriminate]. left.
    destruct (first (wq x) i) eqn:FI; [|discriminate].
    set (x1 := if gone x then x else set_buf x (buf x + size_of t)) in *. assert (GX : gone x1 = gone x) by (unfold x1; destruct (gone x) eqn:G; cbn; congruence). assert (LX : leaving x1 = leaving x) by (unfold x1; destruct (gone x); reflexivity).
    assert (BX : buf x1 = buf x \/ buf x1 = buf x + size_of t) by (unfold x1; destruct (gone x); cbn; auto).
    cbv zeta in ST. destruct (gone x1 || (buf x1 <=? high)) eqn:C; injection ST as <-; exists i, (knd t), (at_ t).
    + eapply leave_moved; eauto. destruct BX as [BX|BX]; auto.
    + apply orb_false_iff in C. destruct C as (C1 & C2). apply Nat.leb_gt in C2. exists Draining. constructor; [apply sk_some, F|rewrite sk_set; reflexivity|reflexivity|rewrite A; constructor|cbn; apply length_set| |left; reflexivity].
      intros q y H. cbn [set_task set_proc procs]. rewrite nth_set. destruct (Nat.eqb_spec q (target t)) as [->|N].
      * rewrite P. rewrite P in H. injection H as <-. exists x1. split; [reflexivity|]. split; [exact GX|]. split; [exact LX|]. split; [|auto]. destruct BX as [BX|BX]; [left; exact BX|right; auto].
      * exists y. repeat (split; [auto; fail|]). intros _ Z. destruct N. symmetry. exact Z.
  - destruct (nth_error (tasks s) i) as [t|] eqn:F; [|discriminate]. destruct (at_ t) eqn:A; try discriminate. destruct (nth_error (procs s) (target t)) as [x|] eqn:P; [|discriminate]. destruct (gone x || (buf x <=? low)); [|discriminate]. injection ST as <-.
    left. exists i, (knd t), (at_ t). eapply leave_moved; eauto.
  - destruct (nth_error (tasks s) i) as [t|] eqn:F; [|discriminate]. destruct (at_ t) as [| | |d| |] eqn:A; try discriminate. destruct (res t); [discriminate|]. destruct (Nat.leb_spec d (now s)); [|discriminate]. injection ST as <-.
    left. exists i, (knd t), (at_ t), WantAgain. apply set_moved; eauto 8; [rewrite sk_push, sk_set; reflexivity|rewrite A; constructor; auto|discriminate].
  - destruct (nth_error (tasks s) i) as [t|] eqn:F; [|discriminate]. destruct (at_ t) as [| | |d| |] eqn:A; try discriminate. destruct (res t) as [o|]; [|discriminate]. injection ST as <-.
    left. exists i, (knd t), (at_ t), (Done o). apply set_moved; eauto 8; [rewrite sk_set; reflexivity|rewrite A; constructor; discriminate|discriminate].
  - destruct (nth_error (procs s) p) as [x|] eqn:P; [|discriminate]. destruct (gone x && negb (leaving x) && idle s p) eqn:C; [|discriminate]. injection ST as <-. apply andb_true_iff in C. destruct C as (C & _). apply andb_true_iff in C. destruct C as (C1 & C2). apply negb_true_iff in C2.
    right. exists p, x. repeat (split; [auto; fail|]). split; [|reflexivity]. constructor; [rewrite spawn_sk; reflexivity|reflexivity|unfold sk; rewrite map_length; reflexivity].
Qed.

(** ** Counting down *)
Definition weight (k : kind) (a : pc) : nat :=
  match a with
  | WantLock => match k with Route _ _ _ => 5 | Rep _ _ => 3 | _ => 1 end
  | WantWrite => match k with Route _ _ _ => 4 | _ => 2 end
  | Draining => match k with Route _ _ _ => 3 | _ => 1 end
  | Awaiting _ => 2
  | WantAgain => 1
  | Done _ => 0
  end.
Definition sum {A} (f : A -> nat) (l : list A) : nat := fold_right (fun x n => f x + n) 0 l.
Lemma sum_set {A} (f : A -> nat) l : forall i x y, nth_error l i = Some x -> sum f (set_nth i y l) + f x = sum f l + f y.
Proof. induction l as [|z l IH]; intros [|i] x y H; cbn in *; try discriminate; [injection H as <-; lia|]. specialize (IH i x y H). unfold sum in IH. lia. Qed.
Lemma sum_app {A} (f : A -> nat) l1 l2 : sum f (l1 ++ l2) = sum f l1 + sum f l2.
Proof. unfold sum. induction l1 as [|x l IH]; cbn; [reflexivity|]. lia. Qed.
Lemma sum_le {A} (f : A -> nat) l i x : nth_error l i = Some x -> f x <= sum f l.
Proof. revert i. induction l as [|z l IH]; intros [|i] H; cbn in *; try discriminate; [injection H as <-; lia|]. specialize (IH i H). unfold sum in IH. lia. Qed.
Lemma sum_map {A B} (g : A -> B) (f : B -> nat) l : sum f (map g l) = sum (fun x => f (g x)) l.
Proof. induction l as [|x l IH]; cbn; [reflexivity|]. unfold sum in IH. now rewrite IH. Qed.

Definition wsum (s : st) : nat := sum (fun x => weight (fst x) (snd x)) (sk s).
Definition psum (s : st) : nat := sum (fun x => if leaving x then 0 else 2) (procs s).
Definition mu (s : st) : nat := wsum s + psum s.

Lemma trans_weight n k a b : trans n k a b -> weight k b < weight k a.
Proof.
  intros H. destruct H as [p z d|p z|k a o N|k|p z d a N|k d N]; cbn; try lia; [|destruct k; cbn; lia|destruct N as [->| ->]; cbn; lia].
  destruct a as [| | |d| |o']; cbn; try (destruct k; cbn; lia). destruct (N o' eq_refl).
Qed.

Lemma psum_ext l : forall l', length l = length l' -> (forall p x, nth_error l p = Some x -> exists x', nth_error l' p = Some x' /\ leaving x' = leaving x) -> sum (fun x => if leaving x then 0 else 2) l' = sum (fun x => if leaving x then 0 else 2) l.
Proof.
  induction l as [|x l IH]; intros [|y l'] L H; cbn in L; try discriminate; [reflexivity|]. cbn. destruct (H 0 x eq_refl) as (x' & E & V). cbn in E. injection E as ->. rewrite V. f_equal. apply IH; [lia|]. intros p z Z. exact (H (S p) z Z).
Qed.

Lemma own_mu s a s' : inv s -> step s a = Some s' -> own a = true -> mu s' < mu s.
Proof.
  intros I ST OW. destruct (own_moves _ _ _ I ST OW) as [(i & k & b & c & [M1 M2 M3 M4 M5 M6 M7])|(p & x & -> & P & LV & GO & [N1 N2 N3] & PR)].
  - unfold mu. assert (psum s' = psum s). { apply psum_ext; [auto|]. intros p x H. destruct (M6 p x H) as (x' & A & _ & B & _). eauto. }
    assert (wsum s' < wsum s). { unfold wsum. rewrite M2. pose proof (sum_set (fun x => weight (fst x) (snd x)) (sk s) i _ (k, c) M1) as Z. cbn [fst snd] in Z. apply trans_weight in M4. lia. }
    lia.
  - unfold mu, wsum, psum. rewrite N1, PR, sum_app. cbn. pose proof (sum_set (fun x => if leaving x then 0 else 2) (procs s) p x (mkProc true true (listed x) (buf x) (wq x)) P) as Z. cbn in Z. rewrite LV in Z. lia.
Qed.

Lemma spawn_mu s k : mu (spawn s k) <= mu s + 5.
Proof.
  unfold mu, wsum. rewrite spawn_sk, sum_app. assert (sum (fun x => weight (fst x) (snd x)) [(k, WantLock)] <= 5) by (destruct k; cbn; lia). unfold psum. cbn [spawn push_c procs]. lia.
Qed.
Lemma set_proc_mu s p x x' : nth_error (procs s) p = Some x -> leaving x' = leaving x -> mu (set_proc s p x') = mu s.
Proof. intros P L. unfold mu, psum. cbn [set_proc procs]. pose proof (sum_set (fun x => if leaving x then 0 else 2) (procs s) p x x' P) as Z. cbn beta in Z. rewrite L in Z. unfold wsum. rewrite sk_proc. lia. Qed.

Lemma any_mu s a s' : inv s -> step s a = Some s' -> mu s' + (if own a then 1 else 0) <= mu s + (if asks a then 5 else 0) + (if joins a then 2 else 0).
Proof.
  intros I ST. destruct (own a) eqn:OW; [pose proof (own_mu _ _ _ I ST OW); lia|]. destruct a as [| |k|p r v|p z|p n|p|i|i|i|i|i|p]; try discriminate OW; cbn [RouteModel.step asks joins] in *.
  - injection ST as <-. unfold mu, wsum, psum, sk. cbn [procs tasks]. lia.
  - injection ST as <-. unfold mu, wsum, psum, sk. cbn [procs tasks]. rewrite sum_app. cbn. lia.
  - destruct k; try discriminate; injection ST as <-; match goal with |- context[spawn s ?k] => pose proof (spawn_mu s k); lia end.
  - destruct (nth_error (procs s) p) as [x|]; [|discriminate]. destruct (negb (leaving x) && idle s p); [|discriminate]. injection ST as <-. pose proof (spawn_mu s (Resp p r v)). lia.
  - destruct (nth_error (procs s) p) as [x|]; [|discriminate]. destruct (negb (leaving x) && idle s p); [|discriminate]. injection ST as <-. pose proof (spawn_mu s (Rep p z)). lia.
  - destruct (nth_error (procs s) p) as [x|] eqn:P; [|discriminate]. destruct (negb (gone x) && (n <=? buf x)); [|discriminate]. injection ST as <-. rewrite (set_proc_mu s p x); auto. lia.
  - destruct (nth_error (procs s) p) as [x|] eqn:P; [|discriminate]. injection ST as <-. rewrite (set_proc_mu s p x); auto. lia.
Qed.

Lemma few_moves l : forall s s', inv s -> run s l = Some s' -> mu s' + how_many own l <= mu s + 5 * how_many asks l + 2 * how_many joins l.
Proof.
  induction l as [|a l IH]; intros s s' I R; cbn [RouteModel.run] in R; [injection R as <-; cbn; lia|]. destruct (step s a) as [s1|] eqn:SS; [|discriminate].
  pose proof (any_mu _ _ _ I SS). specialize (IH _ _ (step_inv _ _ _ I SS) R). unfold how_many in *. cbn [filter]. destruct (own a), (asks a), (joins a); cbn [length]; lia.
Qed.

(** ** Somebody can always go on *)
Definition permitted (R : nat -> bool) (a : label) : Prop := own a = true \/ exists p n, a = Read p n /\ R p = true.

Definition at_rest (s : st) : Prop := forall i t, nth_error (tasks s) i = Some t -> (exists o, at_ t = Done o) \/ (exists d, at_ t = Awaiting d /\ res t = None /\ now s < d).

Definition restb (s : st) (t : task) : bool :=
  match at_ t with Done _ => true | Awaiting d => match res t with None => now s <? d | Some _ => false end | _ => false end.

Lemma restless s : at_rest s \/ exists i t, nth_error (tasks s) i = Some t /\ restb s t = false.
Proof.
  destruct (forallb (restb s) (tasks s)) eqn:E.
  - left. intros i t H. rewrite forallb_forall in E. specialize (E t (nth_error_In _ _ H)). unfold restb in E. destruct (at_ t) as [| | |d| |o]; try discriminate; [right|left; eauto]. destruct (res t); [discriminate|]. apply Nat.ltb_lt in E. eauto.
  - right. assert (X : forall l, forallb (restb s) l = false -> exists i t, nth_error l i = Some t /\ restb s t = false).
    { induction l as [|t l IH]; cbn; [discriminate|]. intros Z. destruct (restb s t) eqn:T; [|exists 0, t; auto]. destruct (IH Z) as (i & u & A & B). exists (S i), u. auto. }
    exact (X _ E).
Qed.

Definition steady (R : nat -> bool) (s : st) : Prop := forall p, live s p -> R p = true \/ calm high s p.

(** One or two moves that bring the server nearer to the end. *)
Definition goes_on (R : nat -> bool) (s : st) : Prop :=
  (exists a s', step s a = Some s' /\ own a = true) \/
  (exists p n i s1 s2, R p = true /\ step s (Read p n) = Some s1 /\ step s1 (Drained i) = Some s2).

Lemma writers_go_on R s p x : inv s -> steady R s -> nth_error (procs s) p = Some x -> wq x <> [] -> goes_on R s.
Proof.
  intros I SD P W. destruct (wq x) as [|j q] eqn:E; [congruence|]. destruct (v_w _ I _ _ P) as [W1 _ _]. assert (IN : In j (wq x)) by (rewrite E; left; reflexivity).
  apply W1 in IN. destruct IN as (k & a & F & M). apply sk_inv in F. destruct F as (t & F & <- & <-).
  assert (T : target t = p). { unfold target. destruct (at_ t); try discriminate; cbn in M; destruct (knd t); try discriminate; apply Nat.eqb_eq in M; exact M. }
  destruct (at_ t) eqn:A; try discriminate.
  - left. exists (Write j). unfold RouteModel.step. rewrite F, A. unfold write. rewrite T, P. unfold first. rewrite E, Nat.eqb_refl. cbv zeta. destruct (_ || _); eauto.
  - destruct (gone x || (buf x <=? low)) eqn:C; [left; exists (Drained j); unfold RouteModel.step; rewrite F, A, T, P, C; eauto|]. apply orb_false_iff in C. destruct C as (C1 & C2).
    destruct (SD p) as [RP|(_ & Z)]; [exists x; auto| |destruct (Z j t F A T)].
    right. exists p, (buf x), j. unfold RouteModel.step. rewrite P, C1, Nat.leb_refl. cbn [negb andb]. do 2 eexists. split; [exact RP|]. split; [reflexivity|]. cbn [set_proc tasks procs]. rewrite F, A, T, (nth_set_same _ _ _ _ P). cbn [set_buf gone buf]. rewrite Nat.sub_diag, C1. cbn. reflexivity.
Qed.

Lemma goes_on_or_rests R s : inv s -> steady R s -> at_rest s \/ goes_on R s.
Proof.
  intros I SD. destruct (restless s) as [H|(i & t & F & B)]; [left; exact H|right].
  assert (WR : forall j u, nth_error (tasks s) j = Some u -> at_ u = WantWrite \/ at_ u = Draining -> goes_on R s).
  { intros j u FU A. pose proof (sk_some _ _ _ FU) as F'. pose proof (v_g _ I _ _ _ F') as G.
    assert (L : ktarget (knd u) < length (procs s) /\ inw (ktarget (knd u)) (knd u) (at_ u) = true).
    { destruct A as [A|A]; rewrite A in *; destruct (knd u); cbn in *; rewrite ?Nat.eqb_refl; try (split; [|reflexivity]); try (apply G; auto; fail); exfalso.
      all: try (destruct G as [?|(? & ?)]; discriminate). all: destruct G as (? & [?|(? & ?)]); discriminate. }
    destruct L as (L & M). apply nth_error_Some in L. destruct (nth_error (procs s) (ktarget (knd u))) as [x|] eqn:P; [|congruence]. eapply writers_go_on; eauto. destruct (v_w _ I _ _ P) as [W1 _ _].
    assert (IN : In j (wq x)) by (apply W1; eauto). intros Z. rewrite Z in IN. destruct IN. }
  assert (LK : forall j u, nth_error (tasks s) j = Some u -> inc (knd u) (at_ u) = true -> goes_on R s).
  { intros j u FU IC. destruct (v_c _ I) as [C1 _ _]. assert (IN : In j (cq s)) by (apply C1; exists (knd u), (at_ u); split; [apply sk_some, FU|exact IC]).
    destruct (cq s) as [|h q] eqn:Q; [destruct IN|]. assert (IH : In h (h :: q)) by (left; reflexivity). apply C1 in IH. destruct IH as (k & a & H1 & H2). pose proof (v_g _ I _ _ _ H1) as G. apply sk_inv in H1. destruct H1 as (w & H1 & <- & <-).
    destruct (at_ w) eqn:A; try discriminate.
    - left. exists (Enter h). unfold RouteModel.step. rewrite H1, Q. cbn [first]. rewrite Nat.eqb_refl. unfold enter. rewrite A. destruct (knd w) as [|p z d|p r v|p z|p]; cbn in G.
      + eauto.
      + destruct (nth_error (procs s) p) as [x|]; [destruct (listed x)|]; eauto.
      + cbv zeta. match goal with |- context[match ?e with Some _ => _ | None => _ end] => destruct e end; eauto.
      + destruct G as (G & _). apply nth_error_Some in G. destruct (nth_error (procs s) p); [eauto|congruence].
      + destruct G as (G & _). apply nth_error_Some in G. destruct (nth_error (procs s) p); [eauto|congruence].
    - eapply WR; eauto.
    - eapply WR; eauto.
    - left. exists (Enter h). unfold RouteModel.step. rewrite H1, Q. cbn [first]. rewrite Nat.eqb_refl. unfold enter. rewrite A. destruct (knd w) as [|p z d|p r v|p z|p]; cbn in G; [destruct G as [?|(? & ?)]; discriminate|eauto|destruct G as (? & [?|(? & ?)]); discriminate|destruct G as (? & G & _); congruence|destruct G as (? & [?|(? & ?)]); discriminate]. }
  unfold restb in B. destruct (at_ t) as [| | |d| |o] eqn:A; try discriminate.
  - eapply LK; eauto. rewrite A. reflexivity.
  - eapply WR; eauto.
  - eapply WR; eauto.
  - left. destruct (res t) as [o|] eqn:RS.
    + exists (Take i). unfold RouteModel.step. rewrite F, A, RS. eauto.
    + exists (Expire i). unfold RouteModel.step. rewrite F, A, RS. apply Nat.ltb_ge in B. apply Nat.leb_le in B. rewrite B. eauto.
  - eapply LK; eauto. rewrite A. reflexivity.
Qed.

(** ** Staying calm *)
Definition tw (p : nat) (x : kind * pc) : nat :=
  match fst x, snd x with
  | Route q z _, (WantLock | WantWrite) => if q =? p then z else 0
  | Rep q z, (WantLock | WantWrite) => if q =? p then z else 0
  | _, _ => 0
  end.
Lemma outstanding_sk s p : outstanding s p = sum (tw p) (sk s).
Proof. unfold sk. rewrite sum_map. reflexivity. Qed.

Lemma trans_tw n k a b p : trans n k a b -> tw p (k, b) <= tw p (k, a).
Proof.
  intros H. destruct H as [q z d|q z|k a o N|k|q z d a N|k d N]; unfold tw; cbn [fst snd].
  - lia.
  - lia.
  - destruct k; lia.
  - destruct k; lia.
  - lia.
  - destruct k; lia.
Qed.

Lemma calm_step s a s' p : inv s -> step s a = Some s' -> own a = true \/ (exists q n, a = Read q n) -> calm high s p -> calm high s' p.
Proof.
  intros I ST OW (C1 & C2). destruct OW as [OW|(q & n & ->)].
  - destruct (own_moves _ _ _ I ST OW) as [(i & k & b & c & [M1 M2 M3 M4 M5 M6 M7])|(q & x & -> & P & LV & GO & [N1 N2 N3] & PR)].
    + pose proof (sum_set (tw p) (sk s) i _ (k, c) M1) as Z. rewrite <- M2, <- !outstanding_sk in Z. pose proof (trans_tw _ _ _ _ p M4) as TW.
      assert (BUF : forall x', nth_error (procs s') p = Some x' -> buf x' + outstanding s' p <= high).
      { intros x' H. destruct (nth_error (procs s) p) as [x|] eqn:P; [|apply nth_error_None in P; apply nth_len in H; lia]. destruct (M6 p x P) as (y & H1 & _ & _ & H2 & _). rewrite H in H1. injection H1 as <-. specialize (C1 x eq_refl).
        destruct H2 as [->|(-> & T & ->)]; [lia|]. assert (TC : tw p (k, c) = 0 /\ tw p (k, WantWrite) = ksize k).
        { assert (NC : c <> WantLock /\ c <> WantWrite) by (inversion M4; subst; split; discriminate). destruct NC as (NC1 & NC2). split; [destruct k; auto; destruct c; auto; congruence|]. destruct k; cbn in T |- *; auto; rewrite T, Nat.eqb_refl; reflexivity. }
        destruct TC as (T1 & T2). lia. }
      split; [exact BUF|].
      intros j t F A T. pose proof (sk_some _ _ _ F) as F'. rewrite M2, nth_set in F'. destruct (Nat.eqb_spec j i) as [->|N].
      * rewrite M1 in F'. injection F' as -> E. rewrite A in E. subst c. pose proof (v_g _ (step_inv _ _ _ I ST) _ _ _ (sk_some _ _ _ F)) as G. rewrite A in G.
        assert (L : ktarget (knd t) = p /\ p < length (procs s')). { unfold target in T. destruct (knd t); cbn in *; subst; try (split; [reflexivity|apply G; auto]; fail); exfalso; [destruct G as [?|(? & ?)]|destruct G as (? & [?|(? & ?)])|destruct G as (? & [?|(? & ?)])]; discriminate. }
        destruct L as (L1 & L2). rewrite M5 in L2. apply nth_error_Some in L2. destruct (nth_error (procs s) p) as [x|] eqn:P; [|congruence]. destruct (M6 p x P) as (y & H1 & _ & _ & _ & H2). specialize (H2 eq_refl L1). specialize (BUF y H1). lia.
      * apply sk_inv in F'. destruct F' as (u & U1 & U2 & U3). apply (C2 j u U1); [congruence|]. unfold target in *. rewrite U2. exact T.
    + split.
      * intros x' H. rewrite outstanding_sk, N1, sum_app, <- outstanding_sk. cbn. rewrite PR, nth_set in H. destruct (Nat.eqb_spec p q) as [->|N]; [rewrite P in H; injection H as <-; cbn; specialize (C1 x P); lia|]. specialize (C1 x' H). lia.
      * intros j t F A T. pose proof (sk_some _ _ _ F) as F'. rewrite N1, nth_snoc in F'. destruct (Nat.eqb_spec j (length (sk s))) as [->|N]; [injection F' as _ E; congruence|]. apply sk_inv in F'. destruct F' as (u & U1 & U2 & U3). apply (C2 j u U1); [congruence|]. unfold target in *. rewrite U2. exact T.
  - cbn [RouteModel.step] in ST. destruct (nth_error (procs s) q) as [x|] eqn:P; [|discriminate]. destruct (negb (gone x) && (n <=? buf x)); [|discriminate]. injection ST as <-. split; [|exact C2].
    intros x' H. rewrite outstanding_sk, sk_proc, <- outstanding_sk. cbn [set_proc procs] in H. rewrite nth_set in H. destruct (Nat.eqb_spec p q) as [->|N]; [rewrite P in H; injection H as <-; cbn; specialize (C1 x P); lia|]. apply C1, H.
Qed.

Lemma live_step s a s' p : inv s -> step s a = Some s' -> own a = true \/ (exists q n, a = Read q n) -> live s' p -> live s p.
Proof.
  intros I ST OW (x' & H & G). destruct OW as [OW|(q & n & ->)].
  - destruct (own_moves _ _ _ I ST OW) as [(i & k & b & c & [M1 M2 M3 M4 M5 M6 M7])|(q & x & -> & P & LV & GO & [N1 N2 N3] & PR)].
    + destruct (nth_error (procs s) p) as [x|] eqn:P; [|apply nth_error_None in P; apply nth_len in H; lia]. destruct (M6 p x P) as (y & H1 & H2 & _). rewrite H in H1. injection H1 as <-. exists x. split; [exact P|congruence].
    + rewrite PR, nth_set in H. destruct (Nat.eqb_spec p q) as [->|N]; [rewrite P in H; injection H as <-; discriminate|]. exists x'. auto.
  - cbn [RouteModel.step] in ST. destruct (nth_error (procs s) q) as [x|] eqn:P; [|discriminate]. destruct (negb (gone x) && (n <=? buf x)); [|discriminate]. injection ST as <-. cbn [set_proc procs] in H. rewrite nth_set in H. destruct (Nat.eqb_spec p q) as [->|N]; [|exists x'; auto]. rewrite P in H. injection H as <-. exists x. auto.
Qed.

Lemma permitted_own R a : permitted R a -> own a = true \/ (exists q n, a = Read q n).
Proof. intros [H|(q & n & -> & _)]; eauto. Qed.

Lemma steady_step R s a s' : inv s -> step s a = Some s' -> permitted R a -> steady R s -> steady R s'.
Proof.
  intros I ST AL SD p L. apply permitted_own in AL. destruct (SD p (live_step _ _ _ _ I ST AL L)) as [H|H]; [auto|right]. eapply calm_step; eauto.
Qed.

Lemma to_rest R : forall n s, mu s <= n -> inv s -> steady R s -> exists l s', run s l = Some s' /\ Forall (permitted R) l /\ at_rest s'.
Proof.
  induction n as [|n IH]; intros s L I SD.
  all: destruct (goes_on_or_rests R s I SD) as [H|[(a & s' & ST & OW)|(p & z & i & s1 & s2 & RP & S1 & S2)]]; [exists [], s; repeat split; auto| |].
  - pose proof (own_mu _ _ _ I ST OW). lia.
  - pose proof (any_mu _ _ _ I S1) as Z. pose proof (own_mu _ _ _ (step_inv _ _ _ I S1) S2 eq_refl). cbn in Z. lia.
  - destruct (IH s') as (l & s2 & A & B & C); [pose proof (own_mu _ _ _ I ST OW); lia|eapply step_inv; eauto|eapply steady_step; eauto; left; exact OW|]. exists (a :: l), s2. cbn. rewrite ST. repeat split; auto. constructor; [left; exact OW|exact B].
  - assert (A1 : permitted R (Read p z)) by (right; eauto). assert (A2 : permitted R (Drained i)) by (left; reflexivity). pose proof (any_mu _ _ _ I S1) as Z. pose proof (step_inv _ _ _ I S1) as I1. pose proof (own_mu _ _ _ I1 S2 eq_refl). cbn in Z.
    destruct (IH s2) as (l & s3 & A & B & C); [lia|exact (step_inv _ _ _ I1 S2)|exact (steady_step _ _ _ _ I1 S2 A2 (steady_step _ _ _ _ I S1 A1 SD))|].
    exists (Read p z :: Drained i :: l), s3. cbn [RouteModel.run]. rewrite S1. cbn [RouteModel.run]. rewrite S2. split; [exact A|]. split; [|exact C]. repeat (constructor; [assumption|]). exact B.
Qed.

(** ** Time *)
Definition within (T : nat) (s : st) : Prop := forall i p z d a, nth_error (sk s) i = Some (Route p z d, a) -> d <= T.
Definition dl (s : st) : Prop := forall i p z d e, nth_error (sk s) i = Some (Route p z d, Awaiting e) -> e <= now s + d.
Definition late (s : st) : Prop := forall i p z d a, nth_error (sk s) i = Some (Route p z d, a) -> (exists o, a = Done o) \/ a = WantAgain \/ exists e, a = Awaiting e /\ e <= now s.

Lemma env_sk s a s' : step s a = Some s' -> own a = false -> now s <= now s' /\ (sk s' = sk s \/ exists k, sk s' = sk s ++ [(k, WantLock)]).
Proof.
  intros ST OW. destruct a as [| |k|p r v|p z|p n|p|i|i|i|i|i|p]; try discriminate OW; cbn [RouteModel.step] in ST.
  - injection ST as <-. cbn. split; [lia|left; reflexivity].
  - injection ST as <-. cbn. split; [lia|left; reflexivity].
  - destruct k; try discriminate; injection ST as <-; (split; [cbn; lia|right; eexists; apply spawn_sk]).
  - destruct (nth_error (procs s) p) as [x|]; [|discriminate]. destruct (negb (leaving x) && idle s p); [|discriminate]. injection ST as <-. (split; [cbn; lia|right; eexists; apply spawn_sk]).
  - destruct (nth_error (procs s) p) as [x|]; [|discriminate]. destruct (negb (leaving x) && idle s p); [|discriminate]. injection ST as <-. (split; [cbn; lia|right; eexists; apply spawn_sk]).
  - destruct (nth_error (procs s) p) as [x|] eqn:P; [|discriminate]. destruct (negb (gone x) && (n <=? buf x)); [|discriminate]. injection ST as <-. cbn. split; [lia|left; reflexivity].
  - destruct (nth_error (procs s) p) as [x|] eqn:P; [|discriminate]. injection ST as <-. cbn. split; [lia|left; reflexivity].
Qed.

Lemma dl_step s a s' : inv s -> step s a = Some s' -> dl s -> dl s'.
Proof.
  intros I ST D i p z d e H. destruct (own a) eqn:OW.
  - destruct (own_moves _ _ _ I ST OW) as [(j & k & b & c & [M1 M2 M3 M4 M5 M6 M7])|(q & x & -> & P & LV & GO & [N1 N2 N3] & PR)].
    + rewrite M3. rewrite M2, nth_set in H. destruct (Nat.eqb_spec i j) as [->|N]; [|eapply D; eauto]. rewrite M1 in H. injection H as -> ->. inversion M4; subst. lia.
    + rewrite N2. rewrite N1, nth_snoc in H. destruct (Nat.eqb_spec i (length (sk s))); [discriminate|]. eapply D; eauto.
  - destruct (env_sk _ _ _ ST OW) as (L & [E|(k & E)]); rewrite E in H; [specialize (D _ _ _ _ _ H); lia|]. rewrite nth_snoc in H. destruct (Nat.eqb_spec i (length (sk s))); [discriminate|]. specialize (D _ _ _ _ _ H). lia.
Qed.
Lemma dl_run l : forall s s', inv s -> dl s -> run s l = Some s' -> dl s'.
Proof.
  induction l as [|a l IH]; intros s s' I D R; cbn [RouteModel.run] in R; [now injection R as <-|]. destruct (step s a) as [s1|] eqn:SS; [|discriminate]. eapply IH; [eapply step_inv; eauto|eapply dl_step; eauto|exact R].
Qed.

Lemma own_now s a s' : inv s -> step s a = Some s' -> own a = true \/ (exists q n, a = Read q n) -> now s' = now s.
Proof.
  intros I ST [OW|(q & n & ->)].
  - destruct (own_moves _ _ _ I ST OW) as [(j & k & b & c & [M1 M2 M3 M4 M5 M6 M7])|(q & x & -> & P & LV & GO & [N1 N2 N3] & PR)]; auto.
  - cbn [RouteModel.step] in ST. destruct (nth_error (procs s) q) as [x|] eqn:P; [|discriminate]. destruct (negb (gone x) && (n <=? buf x)); [|discriminate]. now injection ST as <-.
Qed.

Lemma within_step T s a s' : inv s -> step s a = Some s' -> own a = true \/ (exists q n, a = Read q n) -> within T s -> within T s'.
Proof.
  intros I ST [OW|(q & n & ->)] W i p z d a' H.
  - destruct (own_moves _ _ _ I ST OW) as [(j & k & b & c & [M1 M2 M3 M4 M5 M6 M7])|(q & x & -> & P & LV & GO & [N1 N2 N3] & PR)].
    + rewrite M2, nth_set in H. destruct (Nat.eqb_spec i j) as [->|N]; [|eapply W; eauto]. rewrite M1 in H. injection H as -> ->. eapply W; eauto.
    + rewrite N1, nth_snoc in H. destruct (Nat.eqb_spec i (length (sk s))); [discriminate|]. eapply W; eauto.
  - destruct (env_sk _ _ _ ST eq_refl) as (_ & [E|(k & E)]); rewrite E in H; [eapply W; eauto|].
    cbn [RouteModel.step] in ST. destruct (nth_error (procs s) q) as [x|] eqn:P; [|discriminate]. destruct (negb (gone x) && (n <=? buf x)); [|discriminate]. injection ST as <-. rewrite sk_proc in E. apply (f_equal (@length _)) in E. rewrite app_length in E. cbn in E. lia.
Qed.

Lemma late_step s a s' : inv s -> step s a = Some s' -> own a = true \/ (exists q n, a = Read q n) -> late s -> late s'.
Proof.
  intros I ST OW W i p z d a' H. rewrite (own_now _ _ _ I ST OW). destruct OW as [OW|(q & n & ->)].
  - destruct (own_moves _ _ _ I ST OW) as [(j & k & b & c & [M1 M2 M3 M4 M5 M6 M7])|(q & x & -> & P & LV & GO & [N1 N2 N3] & PR)].
    + rewrite M2, nth_set in H. destruct (Nat.eqb_spec i j) as [->|N]; [|eapply W; eauto]. rewrite M1 in H. injection H as -> ->. specialize (W _ _ _ _ _ M1). destruct W as [(o & ->)|[->|(e & -> & LE)]]; inversion M4; subst; eauto; exfalso; try (match goal with H : _ \/ _ |- _ => destruct H; discriminate end); match goal with H : forall o', Done ?o <> Done o' |- _ => exact (H _ eq_refl) end.
    + rewrite N1, nth_snoc in H. destruct (Nat.eqb_spec i (length (sk s))); [discriminate|]. eapply W; eauto.
  - assert (E : sk s' = sk s). { cbn [RouteModel.step] in ST. destruct (nth_error (procs s) q) as [x|] eqn:P; [|discriminate]. destruct (negb (gone x) && (n <=? buf x)); [|discriminate]. now injection ST as <-. }
    rewrite E in H. eapply W; eauto.
Qed.

Lemma permitted_run (P : st -> Prop) R : (forall s a s', inv s -> step s a = Some s' -> own a = true \/ (exists q n, a = Read q n) -> P s -> P s') ->
  forall l s s', inv s -> P s -> Forall (permitted R) l -> run s l = Some s' -> P s'.
Proof.
  intros ST. induction l as [|a l IH]; intros s s' I D F R0; cbn [RouteModel.run] in R0; [now injection R0 as <-|]. apply Forall_cons_iff in F. destruct F as (F1 & F2). destruct (step s a) as [s1|] eqn:SS; [|discriminate].
  eapply IH; [eapply step_inv; eauto|eapply ST; eauto; eapply permitted_own; eauto|exact F2|exact R0].
Qed.

Lemma ticks T : forall s, run s (repeat Tick T) = Some (mkSt (now s + T) (procs s) (tasks s) (cq s)).
Proof. induction T as [|T IH]; intros s; cbn [repeat RouteModel.run]; [rewrite Nat.add_0_r; destruct s; reflexivity|]. cbn [RouteModel.step]. rewrite IH. cbn. do 2 f_equal. lia. Qed.

Lemma no_ticks R l : Forall (permitted R) l -> how_many is_tick l = 0.
Proof. unfold how_many. induction 1 as [|a l [H|(p & n & -> & _)] HF IH]; cbn; [reflexivity| |exact IH]. destruct a; try discriminate; exact IH. Qed.
Lemma all_ticks T : how_many is_tick (repeat Tick T) = T.
Proof. unfold how_many. induction T as [|T IH]; cbn; auto. Qed.

Lemma everything_ends R T s : inv s -> dl s -> steady R s -> within T s ->
  exists l s', run s l = Some s' /\ Forall (allowed R) l /\ how_many is_tick l <= T /\ all_ended s'.
Proof.
  intros I D SD W. destruct (to_rest R (mu s) s (le_n _) I SD) as (l1 & s1 & R1 & F1 & A1). pose proof (run_inv _ _ _ I R1) as I1. pose proof (dl_run _ _ _ I D R1) as D1.
  assert (SD1 : steady R s1). { clear - I SD F1 R1. revert s I SD R1. induction F1 as [|a l H HF IH]; intros s I SD R1; cbn [RouteModel.run] in R1; [now injection R1 as <-|]. destruct (step s a) as [s2|] eqn:SS; [|discriminate]. eapply IH; [eapply step_inv; eauto|eapply steady_step; eauto|exact R1]. }
  pose proof (permitted_run (within T) R (within_step T) _ _ _ I W F1 R1) as W1.
  set (s2 := mkSt (now s1 + T) (procs s1) (tasks s1) (cq s1)). assert (R2 : run s1 (repeat Tick T) = Some s2) by apply ticks. pose proof (run_inv _ _ _ I1 R2) as I2.
  assert (SD2 : steady R s2) by exact SD1.
  assert (L2 : late s2). { intros i p z d a H. pose proof H as H'. apply sk_inv in H'. destruct H' as (t & F & K & <-). destruct (A1 i t F) as [(o & E)|(e & E & _)]; [left; eauto|right; right]. exists e. split; [exact E|]. rewrite E in H. specialize (D1 i p z d e H). specialize (W1 i p z d _ H). cbn. lia. }
  destruct (to_rest R (mu s2) s2 (le_n _) I2 SD2) as (l3 & s3 & R3 & F3 & A3). pose proof (permitted_run late R late_step _ _ _ I2 L2 F3 R3) as L3. pose proof (run_inv _ _ _ I2 R3) as I3.
  exists (l1 ++ repeat Tick T ++ l3), s3. split; [rewrite run_app, R1, run_app, R2; exact R3|]. split; [|split].
  - assert (PA : forall a, permitted R a -> allowed R a) by (intros a [H|H]; [left; exact H|right; right; exact H]). apply Forall_app. split; [eapply Forall_impl; [exact PA|exact F1]|]. apply Forall_app. split; [apply Forall_forall; intros x Hx; right; left; eapply repeat_spec; eauto|eapply Forall_impl; [exact PA|exact F3]].
  - unfold how_many. rewrite !filter_app, !app_length. pose proof (no_ticks _ _ F1) as Z1. pose proof (no_ticks _ _ F3) as Z3. pose proof (all_ticks T) as Z2. unfold how_many in *. lia.
  - intros i Hi. apply nth_error_Some in Hi. destruct (nth_error (tasks s3) i) as [t|] eqn:F; [|congruence]. destruct (A3 i t F) as [(o & E)|(d & E & _ & LT)]; [exists o, t; auto|]. exfalso. pose proof (sk_some _ _ _ F) as F'. pose proof (v_g _ I3 _ _ _ F') as G. rewrite E in F', G.
    destruct (knd t) as [|p z e|p r v|p z|p]; cbn in G; [destruct G as [?|(? & ?)]; discriminate| |destruct G as (? & [?|(? & ?)]); discriminate|destruct G as (? & ? & G); exact (G d eq_refl)|destruct G as (? & [?|(? & ?)]); discriminate].
    destruct (L3 _ _ _ _ _ F') as [(o & ?)|[?|(e' & EE & LE)]]; try discriminate. injection EE as <-. lia.
Qed.

(** ** Outcomes are final *)
Lemma ended_sk s i o : ended s i o <-> exists k, nth_error (sk s) i = Some (k, Done o).
Proof. split; [intros (t & F & A); exists (knd t); rewrite <- A; apply sk_some, F|]. intros (k & H). apply sk_inv in H. destruct H as (t & F & _ & A). exists t. auto. Qed.

Lemma trans_from n k a b : trans n k a b -> forall o, a <> Done o.
Proof. intros H o. destruct H as [p z d|p z|k a o' N|k|p z d a N|k d N]; try discriminate; [apply N|destruct N as [->| ->]; discriminate]. Qed.

Lemma final_step s a s' i o : inv s -> step s a = Some s' -> ended s i o -> ended s' i o.
Proof.
  intros I ST E. apply ended_sk in E. apply ended_sk. destruct E as (k & E). exists k. destruct (own a) eqn:OW.
  - destruct (own_moves _ _ _ I ST OW) as [(j & k' & b & c & [M1 M2 M3 M4 M5 M6 M7])|(q & x & -> & P & LV & GO & [N1 N2 N3] & PR)].
    + rewrite M2, nth_set. destruct (Nat.eqb_spec i j) as [->|N]; [|exact E]. rewrite M1 in E. injection E as -> ->. destruct (trans_from _ _ _ _ M4 o eq_refl).
    + rewrite N1, nth_snoc. pose proof (nth_len _ _ _ E). destruct (Nat.eqb_spec i (length (sk s))); [lia|exact E].
  - destruct (env_sk _ _ _ ST OW) as (L & [Z|(k' & Z)]); rewrite Z; [exact E|]. rewrite nth_snoc. pose proof (nth_len _ _ _ E). destruct (Nat.eqb_spec i (length (sk s))); [lia|exact E].
Qed.
Lemma final l : forall s s' i o, inv s -> run s l = Some s' -> ended s i o -> ended s' i o.
Proof.
  induction l as [|a l IH]; intros s s' i o I R E; cbn [RouteModel.run] in R; [now injection R as <-|]. destruct (step s a) as [s1|] eqn:SS; [|discriminate]. eapply IH; [eapply step_inv; eauto|exact R|eapply final_step; eauto].
Qed.

(** Nor does a task become another one. *)
Lemma kind_step s a s' i k : inv s -> step s a = Some s' -> is_task s i k -> is_task s' i k.
Proof.
  intros I ST (t & F & K). pose proof (sk_some _ _ _ F) as E. rewrite K in E. assert (X : exists b, nth_error (sk s') i = Some (k, b)).
  { destruct (own a) eqn:OW.
    - destruct (own_moves _ _ _ I ST OW) as [(j & k' & b & c & [M1 M2 M3 M4 M5 M6 M7])|(q & x & -> & P & LV & GO & [N1 N2 N3] & PR)].
      + rewrite M2, nth_set. destruct (Nat.eqb_spec i j) as [->|N]; [|eauto]. rewrite M1 in *. injection E as -> ->. eauto.
      + rewrite N1, nth_snoc. pose proof (nth_len _ _ _ E). destruct (Nat.eqb_spec i (length (sk s))); [lia|eauto].
    - destruct (env_sk _ _ _ ST OW) as (L & [Z|(k' & Z)]); rewrite Z; [eauto|]. rewrite nth_snoc. pose proof (nth_len _ _ _ E). destruct (Nat.eqb_spec i (length (sk s))); [lia|eauto]. }
  destruct X as (b & X). apply sk_inv in X. destruct X as (u & U & V & _). exists u. auto.
Qed.
Lemma kind_run l : forall s s' i k, inv s -> run s l = Some s' -> is_task s i k -> is_task s' i k.
Proof.
  induction l as [|a l IH]; intros s s' i k I R E; cbn [RouteModel.run] in R; [now injection R as <-|]. destruct (step s a) as [s1|] eqn:SS; [|discriminate]. eapply IH; [eapply step_inv; eauto|exact R|eapply kind_step; eauto].
Qed.

(** ** In the order of asking *)
Definition ord (W : nat -> Prop) (q : list nat) : Prop := forall q1 q2 i j, q = q1 ++ j :: q2 -> In i q2 -> W i -> W j -> j < i.
Definition wants (f : list (kind * pc)) (i : nat) : Prop := exists k, nth_error f i = Some (k, WantLock).

Lemma ord_sub (W W' : nat -> Prop) q : (forall i, In i q -> W' i -> W i) -> ord W q -> ord W' q.
Proof. intros S O q1 q2 i j E IN A B. apply (O q1 q2 i j E IN); apply S; auto; rewrite E; apply in_or_app; right; [right; exact IN|left; reflexivity]. Qed.
Lemma ord_tl W q : ord W q -> ord W (tl q).
Proof. intros O q1 q2 i j E. destruct q as [|h q]; cbn in E; [destruct q1; discriminate|]. apply (O (h :: q1) q2 i j). cbn. rewrite E. reflexivity. Qed.
Lemma ord_snoc W q n : ord W q -> (W n -> forall j, In j q -> j < n) -> ord W (q ++ [n]).
Proof.
  intros O N q1 q2 i j E IN A B. destruct (exists_last (l := q2)) as (q3 & m & ->); [intros ->; destruct IN|]. rewrite app_comm_cons, app_assoc in E. apply app_inj_tail in E. destruct E as (-> & ->).
  apply in_app_or in IN. destruct IN as [IN|[<-|[]]]; [apply (O q1 q3 i j eq_refl IN A B)|]. apply N; auto. apply in_or_app. right. left. reflexivity.
Qed.

Definition fair (s : st) : Prop := ord (wants (sk s)) (cq s).

Lemma fair_step s a s' : inv s -> step s a = Some s' -> fair s -> fair s'.
Proof.
  intros I ST O. unfold fair in *.
  assert (NEW : forall k, ord (wants (sk s ++ [(k, WantLock)])) (cq s ++ [length (sk s)])).
  { intros k. assert (IN : forall i, In i (cq s) -> i < length (sk s)). { intros i H. apply (v_c _ I) in H. destruct H as (k' & a' & H & _). eapply nth_len; eauto. }
    apply ord_snoc; [|auto]. eapply ord_sub; [|exact O]. intros i H (k' & W). specialize (IN i H). rewrite nth_snoc in W. destruct (Nat.eqb_spec i (length (sk s))); [lia|]. exists k'. exact W. }
  destruct (own a) eqn:OW.
  - destruct (own_moves _ _ _ I ST OW) as [(i & k & b & c & [M1 M2 M3 M4 M5 M6 M7])|(q & x & -> & P & LV & GO & [N1 N2 N3] & PR)].
    + assert (NW : c <> WantLock) by (inversion M4; subst; discriminate).
      assert (SUB : forall j, wants (sk s') j -> wants (sk s) j). { intros j (k' & W). rewrite M2, nth_set in W. destruct (Nat.eqb_spec j i) as [->|N]; [rewrite M1 in W; injection W as _ W; congruence|]. exists k'. exact W. }
      apply (ord_sub (wants (sk s))) ; [auto|]. destruct M7 as [->|[->|(-> & ->)]]; [exact O|apply ord_tl, O|]. apply ord_snoc; [exact O|]. intros (k' & W). rewrite M1 in W. injection W as -> ->. inversion M4.
    + rewrite N1, N3. apply NEW.
  - destruct a as [| |k|p r v|p z|p n|p|i|i|i|i|i|p]; try discriminate OW; cbn [RouteModel.step] in ST.
    + injection ST as <-. exact O.
    + injection ST as <-. exact O.
    + assert (SP : forall k', fair (spawn s k')). { intros k'. unfold fair. rewrite spawn_sk. cbn [spawn push_c cq]. replace (length (tasks s)) with (length (sk s)) by apply map_length. apply NEW. } destruct k; try discriminate; injection ST as <-; apply SP.
    + assert (SP : forall k', fair (spawn s k')). { intros k'. unfold fair. rewrite spawn_sk. cbn [spawn push_c cq]. replace (length (tasks s)) with (length (sk s)) by apply map_length. apply NEW. } destruct (nth_error (procs s) p) as [x|]; [|discriminate]. destruct (negb (leaving x) && idle s p); [|discriminate]. injection ST as <-. apply SP.
    + assert (SP : forall k', fair (spawn s k')). { intros k'. unfold fair. rewrite spawn_sk. cbn [spawn push_c cq]. replace (length (tasks s)) with (length (sk s)) by apply map_length. apply NEW. } destruct (nth_error (procs s) p) as [x|]; [|discriminate]. destruct (negb (leaving x) && idle s p); [|discriminate]. injection ST as <-. apply SP.
    + destruct (nth_error (procs s) p) as [x|] eqn:P; [|discriminate]. destruct (negb (gone x) && (n <=? buf x)); [|discriminate]. injection ST as <-. exact O.
    + destruct (nth_error (procs s) p) as [x|] eqn:P; [|discriminate]. injection ST as <-. exact O.
Qed.
Lemma fair_run l : forall s s', inv s -> fair s -> run s l = Some s' -> fair s'.
Proof.
  induction l as [|a l IH]; intros s s' I D R; cbn [RouteModel.run] in R; [now injection R as <-|]. destruct (step s a) as [s1|] eqn:SS; [|discriminate]. eapply IH; [eapply step_inv; eauto|eapply fair_step; eauto|exact R].
Qed.
Lemma fair_init : fair init.
Proof. intros q1 q2 i j E. destruct q1; discriminate. Qed.

Lemma in_order s s' i j t u : inv s -> fair s -> step s (Enter j) = Some s' -> nth_error (tasks s) j = Some u -> at_ u = WantLock -> nth_error (tasks s) i = Some t -> i < j -> at_ t <> WantLock.
Proof.
  intros I O ST FU AU FT L AT. cbn [RouteModel.step] in ST. rewrite FU in ST. destruct (first (cq s) j) eqn:FI; [|discriminate]. unfold fair in O. destruct (v_c _ I) as [C1 _ _].
  assert (IN : In i (cq s)) by (apply C1; exists (knd t), (at_ t); split; [apply sk_some, FT|rewrite AT; reflexivity]).
  destruct (cq s) as [|h q]; [discriminate|]. cbn in FI. apply Nat.eqb_eq in FI. subst h. destruct IN as [IN|IN]; [lia|]. assert (j < i); [|lia].
  apply (O [] q i j eq_refl IN); [exists (knd t)|exists (knd u)]; [rewrite <- AT|rewrite <- AU]; apply sk_some; auto.
Qed.

(** ** A request to a process that does not read *)
Definition held (p i : nat) (s : st) : Prop :=
  exists t z d x, nth_error (tasks s) i = Some t /\ knd t = Route p z d /\ at_ t = Draining /\ nth_error (procs s) p = Some x /\ gone x = false /\ low < buf x.
Definition helps (p : nat) (a : label) : bool := match a with Read q _ | Kill q => q =? p | _ => false end.

Lemma held_step p i s a s' : inv s -> held p i s -> helps p a = false -> step s a = Some s' ->
  held p i s' /\ forall j k b, nth_error (sk s') j = Some (k, b) -> (forall k', nth_error (sk s) j = Some (k', WantLock) -> b = WantLock) /\ (length (sk s) <= j -> b = WantLock).
Proof.
  intros I (t & z & d & x & F & K & A & P & G & B) HP ST. assert (FI : first (cq s) i = true) by (eapply holder; eauto).
  assert (HOLD : forall s1, nth_error (sk s1) i = Some (Route p z d, Draining) -> (exists x1, nth_error (procs s1) p = Some x1 /\ gone x1 = false /\ low < buf x1) -> held p i s1).
  { intros s1 H (x1 & H1 & H2 & H3). apply sk_inv in H. destruct H as (t1 & T1 & T2 & T3). exists t1, z, d, x1. auto 8. }
  pose proof (sk_some _ _ _ F) as F'. rewrite K, A in F'.
  destruct (own a) eqn:OW.
  - destruct (own_moves _ _ _ I ST OW) as [(j & k & b & c & [M1 M2 M3 M4 M5 M6 M7])|(q & y & -> & PQ & LV & GO & [N1 N2 N3] & PR)].
    + assert (NJ : j <> i /\ b <> WantLock).
      { destruct a as [| |k0|q r v|q z0|q n|q|h|h|h|h|h|q]; try discriminate OW; cbn [RouteModel.step] in ST.
        - exfalso. destruct (nth_error (tasks s) h) as [u|] eqn:FH; [|discriminate]. destruct (first (cq s) h) eqn:FH2; [|discriminate]. assert (h = i). { destruct (cq s); [discriminate|]. cbn in *. apply Nat.eqb_eq in FI, FH2. congruence. } subst h. rewrite F in FH. injection FH as <-. unfold enter in ST. rewrite K, A in ST. discriminate.
        - destruct (nth_error (tasks s) h) as [u|] eqn:FH; [|discriminate]. destruct (at_ u) eqn:AU; try discriminate. pose proof (sk_some _ _ _ FH) as FH'. assert (h <> i) by (intros ->; rewrite F in FH; injection FH as <-; congruence).
          assert (j = h). { destruct (Nat.eq_dec j h) as [|N]; [auto|exfalso]. assert (X : nth_error (sk s') h = nth_error (sk s) h) by (rewrite M2; apply nth_set_other; auto). rewrite FH', AU in X. unfold write in ST. destruct (nth_error (procs s) (target u)) as [y|]; [|discriminate]. destruct (first (wq y) h); [|discriminate]. cbv zeta in ST. destruct (_ || _); injection ST as <-.
            - rewrite leave_sk, (nth_set_same _ _ _ _ FH') in X. injection X as X. destruct (knd u); try discriminate. match type of X with context[gone ?e] => destruct (gone e); discriminate end.
            - rewrite sk_set, sk_proc, (nth_set_same _ _ _ _ FH') in X. discriminate. }
          subst j. rewrite FH' in M1. injection M1 as <- <-. rewrite AU. split; [auto|discriminate].
        - destruct (nth_error (tasks s) h) as [u|] eqn:FH; [|discriminate]. destruct (at_ u) eqn:AU; try discriminate. pose proof (sk_some _ _ _ FH) as FH'. destruct (nth_error (procs s) (target u)) as [y|] eqn:PY; [|discriminate]. destruct (gone y || (buf y <=? low)) eqn:C; [|discriminate].
          assert (h <> i). { intros ->. rewrite F in FH. injection FH as <-. unfold target in PY. rewrite K, P in PY. injection PY as <-. rewrite G in C. cbn in C. apply Nat.leb_le in C. lia. }
          assert (j = h). { destruct (Nat.eq_dec j h) as [|N]; [auto|exfalso]. assert (X : nth_error (sk s') h = nth_error (sk s) h) by (rewrite M2; apply nth_set_other; auto). rewrite FH', AU in X. injection ST as <-. rewrite leave_sk, (nth_set_same _ _ _ _ FH') in X. injection X as X. destruct (knd u); try discriminate. match type of X with context[gone ?e] => destruct (gone e); discriminate end. }
          subst j. rewrite FH' in M1. injection M1 as <- <-. rewrite AU. split; [auto|discriminate].
        - destruct (nth_error (tasks s) h) as [u|] eqn:FH; [|discriminate]. destruct (at_ u) as [| | |e| |] eqn:AU; try discriminate. pose proof (sk_some _ _ _ FH) as FH'. destruct (res u); [discriminate|]. destruct (e <=? now s); [|discriminate].
          assert (j = h). { destruct (Nat.eq_dec j h) as [|N]; [auto|exfalso]. assert (X : nth_error (sk s') h = nth_error (sk s) h) by (rewrite M2; apply nth_set_other; auto). rewrite FH', AU in X. injection ST as <-. rewrite sk_push, sk_set, (nth_set_same _ _ _ _ FH') in X. discriminate. }
          subst j. rewrite FH' in M1. injection M1 as <- <-. rewrite AU. split; [|discriminate]. intros ->. congruence.
        - destruct (nth_error (tasks s) h) as [u|] eqn:FH; [|discriminate]. destruct (at_ u) as [| | |e| |] eqn:AU; try discriminate. pose proof (sk_some _ _ _ FH) as FH'. destruct (res u) as [o|]; [|discriminate].
          assert (j = h). { destruct (Nat.eq_dec j h) as [|N]; [auto|exfalso]. assert (X : nth_error (sk s') h = nth_error (sk s) h) by (rewrite M2; apply nth_set_other; auto). rewrite FH', AU in X. injection ST as <-. rewrite sk_set, (nth_set_same _ _ _ _ FH') in X. discriminate. }
          subst j. rewrite FH' in M1. injection M1 as <- <-. rewrite AU. split; [|discriminate]. intros ->. congruence.
        - exfalso. destruct (nth_error (procs s) q) as [y|]; [|discriminate]. destruct (gone y && negb (leaving y) && idle s q); [|discriminate]. injection ST as <-. rewrite spawn_sk, sk_proc in M2. apply (f_equal (@length _)) in M2. rewrite app_length, length_set in M2. cbn in M2. lia. }
      destruct NJ as (NJ & NB). split.
      * apply HOLD; [rewrite M2, nth_set_other by auto; exact F'|]. destruct (M6 p x P) as (x1 & X1 & X2 & _ & X3 & _). exists x1. split; [exact X1|]. split; [congruence|]. destruct X3 as [->|(_ & _ & ->)]; lia.
      * intros h k' b' H. rewrite M2, nth_set in H. destruct (Nat.eqb_spec h j) as [->|N].
        -- rewrite M1 in *. injection H as <- <-. split; [intros k'' Z; congruence|]. intros L. apply nth_len in M1. lia.
        -- split; [intros k'' Z; rewrite H in Z; congruence|]. intros L. apply nth_len in H. lia.
    + assert (q <> p) by (intros ->; rewrite P in PQ; injection PQ as <-; congruence). split.
      * apply HOLD; [rewrite N1, nth_snoc; apply nth_len in F' as F2; destruct (Nat.eqb_spec i (length (sk s))); [lia|exact F']|]. exists x. rewrite PR, nth_set_other by auto. auto.
      * intros h k' b' H0. rewrite N1, nth_snoc in H0. destruct (Nat.eqb_spec h (length (sk s))) as [->|N]; [injection H0 as <- <-; auto|]. split; [intros k'' Z; rewrite H0 in Z; congruence|]. intros L. apply nth_len in H0. lia.
  - destruct (env_sk _ _ _ ST OW) as (_ & E). split.
    + apply HOLD; [destruct E as [->|(k & ->)]; [exact F'|rewrite nth_snoc; apply nth_len in F' as F2; destruct (Nat.eqb_spec i (length (sk s))); [lia|exact F']]|].
      destruct a as [| |k0|q r v|q z0|q n|q|h|h|h|h|h|q]; try discriminate OW; cbn [RouteModel.step] in ST.
      * injection ST as <-. eauto.
      * injection ST as <-. exists x. cbn [procs]. rewrite nth_error_app1 by (eapply nth_len; eauto). auto.
      * destruct k0; try discriminate; injection ST as <-; exists x; auto.
      * destruct (nth_error (procs s) q) as [y|]; [|discriminate]. destruct (negb (leaving y) && idle s q); [|discriminate]. injection ST as <-. exists x. auto.
      * destruct (nth_error (procs s) q) as [y|]; [|discriminate]. destruct (negb (leaving y) && idle s q); [|discriminate]. injection ST as <-. exists x. auto.
      * cbn in HP. apply Nat.eqb_neq in HP. destruct (nth_error (procs s) q) as [y|]; [|discriminate]. destruct (negb (gone y) && (n <=? buf y)); [|discriminate]. injection ST as <-. exists x. cbn [set_proc procs]. rewrite nth_set_other by auto. auto.
      * cbn in HP. apply Nat.eqb_neq in HP. destruct (nth_error (procs s) q) as [y|]; [|discriminate]. injection ST as <-. exists x. cbn [set_proc procs]. rewrite nth_set_other by auto. auto.
    + intros h k' b' H. destruct E as [E|(k & E)]; rewrite E in H.
      * split; [intros k'' Z; rewrite H in Z; congruence|]. intros L. apply nth_len in H. lia.
      * rewrite nth_snoc in H. destruct (Nat.eqb_spec h (length (sk s))) as [->|N]; [injection H as <- <-; auto|]. split; [intros k'' Z; rewrite H in Z; congruence|]. intros L. apply nth_len in H. lia.
Qed.

Lemma held_run p i l : forall s s', inv s -> held p i s -> forallb (fun a => negb (helps p a)) l = true -> run s l = Some s' ->
  held p i s' /\ forall j k b, nth_error (sk s') j = Some (k, b) -> wants (sk s) j \/ length (sk s) <= j -> b = WantLock.
Proof.
  induction l as [|a l IH]; intros s s' I H F R; cbn [RouteModel.run] in R.
  - injection R as <-. split; [exact H|]. intros j k b E [(k' & W)|L]; [congruence|apply nth_len in E; lia].
  - cbn in F. apply andb_true_iff in F. destruct F as (F1 & F2). apply negb_true_iff in F1. destruct (step s a) as [s1|] eqn:SS; [|discriminate]. destruct (held_step _ _ _ _ _ I H F1 SS) as (H1 & H2). pose proof (step_inv _ _ _ I SS) as I1. destruct (IH _ _ I1 H1 F2 R) as (A & B). split; [exact A|].
    intros j k b E W. apply (B j k b E). destruct (nth_error (sk s1) j) as [(k1, b1)|] eqn:E1; [left|right; apply nth_error_None, E1]. exists k1. destruct (H2 j k1 b1 E1) as (Z1 & Z2). destruct W as [(k' & W)|L]; [rewrite <- (Z1 k' W)|rewrite <- (Z2 L)]; exact E1.
Qed.

(** ** What outcomes are due to *)
Lemma count_app f l1 l2 : how_many f (l1 ++ l2) = how_many f l1 + how_many f l2.
Proof. unfold how_many. rewrite filter_app, app_length. reflexivity. Qed.

Definition sent (l : list label) (i d e : nat) : Prop := exists l1 a l2, l = l1 ++ a :: l2 /\ (a = Write i \/ a = Drained i) /\ e = how_many is_tick l1 + d.

Lemma just_mono l l' i p d o : justified l i p d o -> justified (l ++ l') i p d o.
Proof.
  destruct o; cbn; auto.
  - intros [H|(l1 & l2 & -> & H)]; [left; apply in_or_app; auto|right]. exists l1, (l2 ++ l'). rewrite <- app_assoc. auto.
  - intros H. apply in_or_app. auto.
  - intros H. apply in_or_app. auto.
  - intros (N & v & H). split; [exact N|]. exists v. apply in_or_app. auto.
  - intros H. apply in_or_app. auto.
  - intros (l1 & a & l2 & -> & A & B). exists l1, a, (l2 ++ l'). rewrite <- app_assoc. split; [reflexivity|]. split; [exact A|]. rewrite count_app. lia.
Qed.
Lemma sent_mono l l' i d e : sent l i d e -> sent (l ++ l') i d e.
Proof. intros (l1 & a & l2 & -> & A & B). exists l1, a, (l2 ++ l'). rewrite <- app_assoc. auto. Qed.
Lemma sent_late l i p d e : sent l i d e -> e <= how_many is_tick l -> justified l i p d TimedOut.
Proof.
  intros (l1 & a & l2 & -> & A & B) L. exists l1, a, l2. split; [reflexivity|]. split; [exact A|]. rewrite count_app in L. unfold how_many in *. cbn [filter] in L. destruct A as [->| ->]; cbn in L; lia.
Qed.

Definition TJ (l : list label) (i : nat) (t : task) : Prop :=
  match knd t with
  | Resp p r v => In (Respond p r v) l
  | Bye p => In (Kill p) l
  | Route p _ d =>
      (forall o, res t = Some o -> justified l i p d o) /\
      match at_ t with Done o => justified l i p d o | Awaiting e => sent l i d e | WantAgain => justified l i p d TimedOut | _ => True end
  | _ => True
  end.
Lemma TJ_mono l l' i t : TJ l i t -> TJ (l ++ l') i t.
Proof.
  unfold TJ. destruct (knd t); auto; try (intros H; apply in_or_app; auto; fail). intros (A & B). split; [intros o H; apply just_mono; auto|]. destruct (at_ t); auto; [apply sent_mono, B|apply just_mono, B|apply just_mono, B].
Qed.

Record jinv (l : list label) (s : st) : Prop := {
  j_now : now s = how_many is_tick l;
  j_len : length (procs s) = how_many joins l;
  j_pr : forall p x, nth_error (procs s) p = Some x -> gone x = true \/ leaving x = true \/ listed x = false -> In (Kill p) l;
  j_t : forall i t, nth_error (tasks s) i = Some t -> TJ l i t
}.

Lemma jinv_init : jinv [] init.
Proof. constructor; cbn; auto; [intros p x H; destruct p; discriminate|intros i t H; destruct i; discriminate]. Qed.

Lemma jset l s a i t : jinv l s -> TJ (l ++ [a]) i t -> forall j u, nth_error (set_nth i t (tasks s)) j = Some u -> TJ (l ++ [a]) j u.
Proof.
  intros J H j u. rewrite nth_set. destruct (Nat.eqb_spec j i) as [->|N].
  - destruct (nth_error (tasks s) i); [intros [= <-]; exact H|discriminate].
  - intros E. apply TJ_mono. apply (j_t _ _ J), E.
Qed.
Lemma jproc l s a p x x' : jinv l s -> nth_error (procs s) p = Some x -> (gone x' = true \/ leaving x' = true \/ listed x' = false -> In (Kill p) (l ++ [a])) ->
  forall q y, nth_error (set_nth p x' (procs s)) q = Some y -> gone y = true \/ leaving y = true \/ listed y = false -> In (Kill q) (l ++ [a]).
Proof.
  intros J P H q y. rewrite nth_set. destruct (Nat.eqb_spec q p) as [->|N]; [rewrite P; intros [= <-]; exact H|]. intros E B. apply in_or_app. left. eapply (j_pr _ _ J); eauto.
Qed.
Lemma jkeep l s a : jinv l s -> forall q y, nth_error (procs s) q = Some y -> gone y = true \/ leaving y = true \/ listed y = false -> In (Kill q) (l ++ [a]).
Proof. intros J q y E B. apply in_or_app. left. eapply (j_pr _ _ J); eauto. Qed.

Lemma jspawn l s a k : jinv l s -> is_tick a = false -> joins a = false -> (forall i, TJ (l ++ [a]) i (mkTask k WantLock false None)) -> jinv (l ++ [a]) (spawn s k).
Proof.
  intros J T N H. constructor.
  - rewrite count_app. unfold how_many at 2. cbn. rewrite T. cbn. rewrite (j_now _ _ J). lia.
  - rewrite count_app. unfold how_many at 2. cbn. rewrite N. cbn. rewrite (j_len _ _ J). lia.
  - exact (jkeep _ s _ J).
  - intros i t. cbn [spawn push_c tasks]. rewrite nth_snoc. destruct (i =? length (tasks s)); [intros [= <-]; apply H|]. intros E. apply TJ_mono. apply (j_t _ _ J), E.
Qed.

Lemma jown l s s' a : jinv l s -> is_tick a = false -> joins a = false -> now s' = now s -> length (procs s') = length (procs s) ->
  (forall q y, nth_error (procs s') q = Some y -> gone y = true \/ leaving y = true \/ listed y = false -> In (Kill q) (l ++ [a])) ->
  (forall j u, nth_error (tasks s') j = Some u -> TJ (l ++ [a]) j u) -> jinv (l ++ [a]) s'.
Proof.
  intros J T N E1 E2 P H. constructor; auto.
  - rewrite count_app. unfold how_many at 2. cbn. rewrite T. cbn. rewrite E1, (j_now _ _ J). lia.
  - rewrite count_app. unfold how_many at 2. cbn. rewrite N. cbn. rewrite E2, (j_len _ _ J). lia.
Qed.

Lemma leave_j l s i t p x0 x a : jinv l s -> is_tick a = false -> joins a = false -> (a = Write i \/ a = Drained i) -> nth_error (tasks s) i = Some t -> (at_ t = WantWrite \/ at_ t = Draining) -> target t = p -> nth_error (procs s) p = Some x0 ->
  gone x = gone x0 -> leaving x = leaving x0 -> listed x = listed x0 -> jinv (l ++ [a]) (leave s i t p x).
Proof.
  intros J T N A F AT TG P G1 G2 G3. pose proof (j_t _ _ J _ _ F) as H.
  assert (KP : gone x0 = true \/ leaving x0 = true \/ listed x0 = false -> In (Kill p) (l ++ [a])) by (exact (jkeep _ s _ J _ _ P)).
  apply jown with (s := s); auto.
  - unfold leave. destruct (knd t); try destruct (gone x); reflexivity.
  - unfold leave. destruct (knd t); try destruct (gone x); cbn; apply length_set.
  - assert (E : procs (leave s i t p x) = set_nth p (set_wq x (tl (wq x))) (procs s)) by (unfold leave; destruct (knd t); try destruct (gone x); reflexivity). rewrite E. eapply jproc; eauto. cbn. rewrite G1, G2, G3. exact KP.
  - unfold TJ in H. unfold leave. destruct (knd t) as [|q z d|q r v|q z|q] eqn:K.
    + cbn [set_task set_proc tasks]. apply jset; auto. unfold TJ. cbn. rewrite K. exact Logic.I.
    + assert (q = p) by (unfold target in TG; rewrite K in TG; exact TG). subst q. destruct H as (H1 & H2). destruct (gone x) eqn:G; cbn [pop_c set_task set_proc tasks]; apply jset; auto; unfold TJ; cbn; rewrite ?K.
      * split; [intros o HO; apply just_mono; auto|]. apply KP. left. congruence.
      * split; [intros o HO; apply just_mono; auto|]. exists l, a, []. split; [reflexivity|]. split; [exact A|]. rewrite (j_now _ _ J). reflexivity.
    + cbn [set_task set_proc tasks]. apply jset; auto. unfold TJ. cbn. rewrite K. apply in_or_app. auto.
    + cbn [set_task set_proc tasks]. apply jset; auto. unfold TJ. cbn. rewrite K. exact Logic.I.
    + cbn [set_task set_proc tasks]. apply jset; auto. unfold TJ. cbn. rewrite K. apply in_or_app. auto.
Qed.

Lemma TJ_at l i t a : TJ l i t -> (forall p z d, knd t = Route p z d -> match a with Done o => justified l i p d o | Awaiting e => sent l i d e | WantAgain => justified l i p d TimedOut | _ => True end) -> forall b, TJ l i (mkTask (knd t) a b (res t)).
Proof. unfold TJ. cbn. intros H K b. destruct (knd t); auto. split; [apply H|]. eapply K; eauto. Qed.

Lemma jstep l s a s' : inv s -> jinv l s -> step s a = Some s' -> jinv (l ++ [a]) s'.
Proof.
  intros I J ST. destruct a as [| |k|p r v|p z|p n|p|i|i|i|i|i|p]; cbn [RouteModel.step] in ST.
  - injection ST as <-. constructor.
    + rewrite count_app. cbn. rewrite (j_now _ _ J). lia.
    + rewrite count_app. cbn. rewrite (j_len _ _ J). lia.
    + exact (jkeep _ s _ J).
    + intros i t E. apply TJ_mono, (j_t _ _ J), E.
  - injection ST as <-. constructor.
    + rewrite count_app. cbn. rewrite (j_now _ _ J). lia.
    + rewrite count_app. cbn. rewrite app_length, (j_len _ _ J). reflexivity.
    + intros q y. cbn [procs]. rewrite nth_snoc. destruct (q =? length (procs s)); [intros [= <-] [?|[?|?]]; discriminate|exact (jkeep _ s _ J q y)].
    + intros i t E. apply TJ_mono, (j_t _ _ J), E.
  - destruct k; try discriminate; injection ST as <-; apply jspawn; auto; intros i; unfold TJ; cbn; auto. split; [discriminate|exact Logic.I].
  - destruct (nth_error (procs s) p) as [x|] eqn:P; [|discriminate]. destruct (negb (leaving x) && idle s p); [|discriminate]. injection ST as <-. apply jspawn; auto. intros i. unfold TJ. cbn. apply in_or_app. right. left. reflexivity.
  - destruct (nth_error (procs s) p) as [x|] eqn:P; [|discriminate]. destruct (negb (leaving x) && idle s p); [|discriminate]. injection ST as <-. apply jspawn; auto. intros i. unfold TJ. cbn. exact Logic.I.
  - destruct (nth_error (procs s) p) as [x|] eqn:P; [|discriminate]. destruct (negb (gone x) && (n <=? buf x)); [|discriminate]. injection ST as <-. apply jown with (s := s); auto; [cbn; apply length_set| |intros j u E; apply TJ_mono, (j_t _ _ J), E].
    cbn [set_proc procs]. eapply jproc; eauto. cbn. intros B. eapply jkeep; eauto.
  - destruct (nth_error (procs s) p) as [x|] eqn:P; [|discriminate]. injection ST as <-. apply jown with (s := s); auto; [cbn; apply length_set| |intros j u E; apply TJ_mono, (j_t _ _ J), E].
    cbn [set_proc procs]. eapply jproc; eauto. intros _. apply in_or_app. right. left. reflexivity.
  - destruct (nth_error (tasks s) i) as [t|] eqn:F; [|discriminate]. destruct (first (cq s) i); [|discriminate]. unfold enter in ST. pose proof (j_t _ _ J _ _ F) as TI. pose proof (TJ_mono _ [Enter i] _ _ TI) as TI'.
    destruct (knd t) as [|p z d|p r v|p z|p] eqn:K; destruct (at_ t) eqn:A; try discriminate.
    + injection ST as <-. apply jown with (s := s); auto; [exact (jkeep _ s _ J)|]. cbn [pop_c set_task tasks]. apply jset; auto. unfold TJ. cbn. rewrite K. exact Logic.I.
    + assert (UN : In (Kill p) (l ++ [Enter i]) \/ length (procs s) <= p -> jinv (l ++ [Enter i]) (pop_c (set_task s i (set_at t (Done Unroutable))))).
      { intros U. apply jown with (s := s); auto; [exact (jkeep _ s _ J)|]. cbn [pop_c set_task tasks]. apply jset; auto. apply TJ_at; auto. intros p' z' d' K'. rewrite K in K'. injection K' as <- <- <-. cbn. destruct U as [U|U]; [left; exact U|right]. exists l, []. rewrite <- (j_len _ _ J). auto. }
      destruct (nth_error (procs s) p) as [x|] eqn:P; [|injection ST as <-; apply UN; right; apply nth_error_None, P]. destruct (listed x) eqn:LS; [|injection ST as <-; apply UN; left; eapply jkeep; eauto].
      injection ST as <-. apply jown with (s := s); auto; [cbn; apply length_set| |].
      * cbn [set_proc set_task procs]. eapply jproc; eauto. cbn. intros B. eapply jkeep; eauto.
      * cbn [set_proc set_task tasks]. apply jset; auto. rewrite <- K. apply TJ_at; auto.
    + injection ST as <-. apply jown with (s := s); auto; [exact (jkeep _ s _ J)|]. cbn [pop_c set_task tasks]. apply jset; auto. rewrite <- K. apply TJ_at; auto. intros p' z' d' K'. rewrite K in K'. injection K' as <- <- <-. unfold TJ in TI'. rewrite K, A in TI'. apply TI'.
    + cbv zeta in ST. cbn [pop_c set_task tasks] in ST. set (tk := set_nth i (set_at t (Done Ok)) (tasks s)) in *.
      assert (T1 : forall j u, nth_error tk j = Some u -> TJ (l ++ [Enter i]) j u). { unfold tk. apply jset; auto. unfold TJ. cbn. rewrite K. unfold TJ in TI'. rewrite K in TI'. exact TI'. }
      destruct (nth_error tk r) as [q|] eqn:R; injection ST as <-; (apply jown with (s := s); [exact J|reflexivity|reflexivity|reflexivity|reflexivity|exact (jkeep _ s _ J)|]); cbn [pop_c set_task tasks]; fold tk; [|exact T1].
      intros j u. rewrite nth_set. destruct (Nat.eqb_spec j r) as [->|N]; [|apply T1]. rewrite R. intros [= <-]. specialize (T1 _ _ R). unfold TJ in TI'. rewrite K in TI'. unfold answer. destruct (knd q) as [|q' z' d'|q' r' v'|q' z'|q'] eqn:KQ; auto. destruct (pend q); auto.
      unfold TJ in T1 |- *. cbn. rewrite KQ in *. destruct T1 as (T1 & T2). split; [|exact T2]. intros o. destruct (res q) as [o'|]; [exact (T1 o)|]. intros [= <-]. destruct (Nat.eqb_spec p q') as [->|NE]; cbn; [exact TI'|]. split; [exact NE|]. eauto.
    + destruct (nth_error (procs s) p) as [x|] eqn:P; [|discriminate]. injection ST as <-. apply jown with (s := s); auto; [cbn; apply length_set| |].
      * cbn [set_proc pop_c set_task procs]. eapply jproc; eauto. cbn. intros B. eapply jkeep; eauto.
      * cbn [set_proc pop_c set_task tasks]. apply jset; auto. unfold TJ. cbn. rewrite K. exact Logic.I.
    + destruct (nth_error (procs s) p) as [x|] eqn:P; [|discriminate]. unfold TJ in TI'. rewrite K in TI'. injection ST as <-. apply jown with (s := s); auto; [cbn; apply length_set| |].
      * cbn [set_proc pop_c set_task procs]. eapply jproc; eauto.
      * cbn [set_proc pop_c set_task tasks]. intros j u E. rewrite nth_error_map in E. destruct (nth_error (set_nth i (set_at t (Done Ok)) (tasks s)) j) as [u0|] eqn:E0; [|discriminate]. injection E as <-.
        assert (T0 : TJ (l ++ [Enter i]) j u0). { revert j u0 E0. apply jset; auto. unfold TJ. cbn. rewrite K. exact TI'. }
        unfold farewell. destruct (knd u0) as [|q' z' d'|q' r' v'|q' z'|q'] eqn:KQ; auto. destruct (pend u0 && (q' =? p)) eqn:C; auto. apply andb_true_iff in C. destruct C as (_ & C). apply Nat.eqb_eq in C. subst q'.
        unfold TJ in T0 |- *. cbn. rewrite KQ in *. destruct T0 as (T1 & T2). split; [|exact T2]. intros o. destruct (res u0) as [o'|]; [exact (T1 o)|]. intros [= <-]. exact TI'.
  - destruct (nth_error (tasks s) i) as [t|] eqn:F; [|discriminate]. destruct (at_ t) eqn:A; try discriminate. unfold write in ST. destruct (nth_error (procs s) (target t)) as [x|] eqn:P; [|discriminate].
    destruct (first (wq x) i) eqn:FI; [|discriminate].
    set (x1 := if gone x then x else set_buf x (buf x + size_of t)) in *. assert (GX : gone x1 = gone x) by (unfold x1; destruct (gone x) eqn:G; cbn; congruence). assert (LX : leaving x1 = leaving x) by (unfold x1; destruct (gone x); reflexivity). assert (LI : listed x1 = listed x) by (unfold x1; destruct (gone x); reflexivity).
    cbv zeta in ST. destruct (gone x1 || (buf x1 <=? high)) eqn:C; injection ST as <-.
    + eapply leave_j; eauto.
    + apply jown with (s := s); auto; [cbn; apply length_set| |].
      * cbn [set_proc set_task procs]. eapply jproc; eauto. rewrite GX, LX, LI. intros B. eapply jkeep; eauto.
      * cbn [set_proc set_task tasks]. apply jset; auto. apply TJ_at; auto. apply TJ_mono. apply (j_t _ _ J), F.
  - destruct (nth_error (tasks s) i) as [t|] eqn:F; [|discriminate]. destruct (at_ t) eqn:A; try discriminate. destruct (nth_error (procs s) (target t)) as [x|] eqn:P; [|discriminate]. destruct (gone x || (buf x <=? low)); [|discriminate]. injection ST as <-.
    eapply leave_j; eauto.
  - destruct (nth_error (tasks s) i) as [t|] eqn:F; [|discriminate]. destruct (at_ t) as [| | |e| |] eqn:A; try discriminate. destruct (res t) eqn:RT; [discriminate|]. destruct (Nat.leb_spec e (now s)) as [LE|]; [|discriminate]. injection ST as <-.
    apply jown with (s := s); auto; [exact (jkeep _ s _ J)|]. cbn [push_c set_task tasks]. apply jset; auto. apply TJ_at; [apply TJ_mono, (j_t _ _ J), F|]. intros p z d K. pose proof (j_t _ _ J _ _ F) as T. unfold TJ in T. rewrite K, A in T. apply just_mono. eapply sent_late; [apply T|]. rewrite <- (j_now _ _ J). exact LE.
  - destruct (nth_error (tasks s) i) as [t|] eqn:F; [|discriminate]. destruct (at_ t) as [| | |e| |] eqn:A; try discriminate. destruct (res t) as [o|] eqn:RT; [|discriminate]. injection ST as <-.
    apply jown with (s := s); auto; [exact (jkeep _ s _ J)|]. cbn [set_task tasks]. apply jset; auto. apply TJ_at; [apply TJ_mono, (j_t _ _ J), F|]. intros p z d K. pose proof (j_t _ _ J _ _ F) as T. unfold TJ in T. rewrite K in T. apply just_mono. apply T, RT.
  - destruct (nth_error (procs s) p) as [x|] eqn:P; [|discriminate]. destruct (gone x && negb (leaving x) && idle s p) eqn:C; [|discriminate]. injection ST as <-. apply andb_true_iff in C. destruct C as (C & _). apply andb_true_iff in C. destruct C as (C1 & C2).
    assert (KP : In (Kill p) (l ++ [Notice p])) by (eapply jkeep; eauto).
    apply jown with (s := s); auto; [cbn; apply length_set|cbn [spawn push_c set_proc procs]; eapply jproc; eauto|].
    intros j u. cbn [spawn push_c set_proc tasks]. rewrite nth_snoc. destruct (j =? length (tasks s)); [intros [= <-]; exact KP|]. intros E. apply TJ_mono, (j_t _ _ J), E.
Qed.

Lemma jrun l : forall l0 s s', inv s -> jinv l0 s -> run s l = Some s' -> jinv (l0 ++ l) s'.
Proof.
  induction l as [|a l IH]; intros l0 s s' I J R; cbn [RouteModel.run] in R; [injection R as <-; rewrite app_nil_r; exact J|]. destruct (step s a) as [s1|] eqn:SS; [|discriminate].
  replace (l0 ++ a :: l) with ((l0 ++ [a]) ++ l) by (rewrite <- app_assoc; reflexivity). eapply IH; [eapply step_inv; eauto|eapply jstep; eauto|exact R].
Qed.

(** ** An answer in time counts *)
Definition settled (i : nat) (o : outcome) (s : st) : Prop := exists t, nth_error (tasks s) i = Some t /\ (exists p z d, knd t = Route p z d) /\ (at_ t = Done o \/ exists e, at_ t = Awaiting e /\ res t = Some o).

Lemma settled_step i o s a s' : inv s -> settled i o s -> step s a = Some s' -> settled i o s'.
Proof.
  intros I (t & F & K & S) ST.
  assert (SAME : forall s1, tasks s1 = tasks s -> settled i o s1) by (intros s1 E; exists t; rewrite E; auto).
  assert (SP : forall s1 k, tasks s1 = tasks s -> settled i o (spawn s1 k)). { intros s1 k E. exists t. split; [|auto]. cbn [spawn push_c tasks]. rewrite E, nth_error_app1; [exact F|]. eapply nth_len; eauto. }
  assert (OTHER : forall j u s1, j <> i -> tasks s1 = set_nth j u (tasks s) -> settled i o s1). { intros j u s1 N E. exists t. split; [|auto]. rewrite E, nth_set_other by auto. exact F. }
  assert (ND : at_ t <> WantLock /\ at_ t <> WantWrite /\ at_ t <> Draining /\ at_ t <> WantAgain) by (destruct S as [->|(e & -> & _)]; repeat split; discriminate). destruct ND as (N1 & N2 & N3 & N4).
  destruct a as [| |k|p r v|p z|p n|p|j|j|j|j|j|p]; cbn [RouteModel.step] in ST.
  - injection ST as <-. apply SAME. reflexivity.
  - injection ST as <-. apply SAME. reflexivity.
  - destruct k; try discriminate; injection ST as <-; apply SP; reflexivity.
  - destruct (nth_error (procs s) p) as [x|]; [|discriminate]. destruct (negb (leaving x) && idle s p); [|discriminate]. injection ST as <-. apply SP; reflexivity.
  - destruct (nth_error (procs s) p) as [x|]; [|discriminate]. destruct (negb (leaving x) && idle s p); [|discriminate]. injection ST as <-. apply SP; reflexivity.
  - destruct (nth_error (procs s) p) as [x|]; [|discriminate]. destruct (negb (gone x) && (n <=? buf x)); [|discriminate]. injection ST as <-. apply SAME. reflexivity.
  - destruct (nth_error (procs s) p) as [x|]; [|discriminate]. injection ST as <-. apply SAME. reflexivity.
  - destruct (nth_error (tasks s) j) as [u|] eqn:FJ; [|discriminate]. destruct (first (cq s) j); [|discriminate]. unfold enter in ST.
    assert (NE : at_ u = WantLock \/ at_ u = WantAgain -> j <> i) by (intros [A|A] ->; rewrite F in FJ; injection FJ as <-; congruence).
    destruct (knd u) as [|p z d|p r v|p z|p] eqn:KU; destruct (at_ u) eqn:AU; try discriminate; specialize (NE ltac:(auto)).
    + injection ST as <-. eapply OTHER; eauto; reflexivity.
    + destruct (nth_error (procs s) p) as [x|]; [destruct (listed x)|]; injection ST as <-; (eapply OTHER; eauto; reflexivity).
    + injection ST as <-. eapply OTHER; eauto; reflexivity.
    + cbv zeta in ST. cbn [pop_c set_task tasks] in ST. destruct (nth_error (set_nth j (set_at u (Done Ok)) (tasks s)) r) as [q|] eqn:R; injection ST as <-; [|eapply OTHER; eauto; reflexivity].
      destruct (Nat.eq_dec r i) as [->|NR].
      * rewrite nth_set_other in R by auto. rewrite F in R. injection R as <-. exists (answer p v t). split; [cbn [pop_c set_task tasks]; apply (nth_set_same _ _ _ t); rewrite nth_set_other by auto; exact F|].
        unfold answer. destruct K as (p' & z' & d' & K). rewrite K. destruct (pend t); [|split; [rewrite K; eauto|exact S]]. cbn. split; [eauto|]. destruct S as [S|(e & S1 & S2)]; [left; exact S|right; exists e; rewrite S2; auto].
      * exists t. split; [|auto]. cbn [pop_c set_task tasks]. rewrite !nth_set_other by auto. exact F.
    + destruct (nth_error (procs s) p) as [x|]; [|discriminate]. injection ST as <-. eapply OTHER; eauto; reflexivity.
    + destruct (nth_error (procs s) p) as [x|]; [|discriminate]. injection ST as <-. exists (farewell p t). split; [cbn [set_proc pop_c set_task tasks]; rewrite nth_error_map, nth_set_other, F by auto; reflexivity|].
      unfold farewell. destruct K as (p' & z' & d' & K). rewrite K. destruct (pend t && (p' =? p)); [|split; [rewrite K; eauto|exact S]]. cbn. split; [eauto|]. destruct S as [S|(e & S1 & S2)]; [left; exact S|right; exists e; rewrite S2; auto].
  - destruct (nth_error (tasks s) j) as [u|] eqn:FJ; [|discriminate]. destruct (at_ u) eqn:AU; try discriminate. assert (NE : j <> i) by (intros ->; rewrite F in FJ; injection FJ as <-; congruence). unfold write in ST. destruct (nth_error (procs s) (target u)) as [x|]; [|discriminate]. destruct (first (wq x) j); [|discriminate]. cbv zeta in ST. destruct (_ || _); injection ST as <-; [|eapply OTHER; eauto; reflexivity].
    unfold leave. destruct (knd u); try (match goal with |- context[if ?b then _ else _] => destruct b end); eapply OTHER; eauto; reflexivity.
  - destruct (nth_error (tasks s) j) as [u|] eqn:FJ; [|discriminate]. destruct (at_ u) eqn:AU; try discriminate. assert (NE : j <> i) by (intros ->; rewrite F in FJ; injection FJ as <-; congruence). destruct (nth_error (procs s) (target u)) as [x|]; [|discriminate]. destruct (gone x || (buf x <=? low)); [|discriminate]. injection ST as <-.
    unfold leave. destruct (knd u); try destruct (gone x); eapply OTHER; eauto; reflexivity.
  - destruct (nth_error (tasks s) j) as [u|] eqn:FJ; [|discriminate]. destruct (at_ u) as [| | |e| |] eqn:AU; try discriminate. destruct (res u) eqn:RU; [discriminate|]. destruct (e <=? now s); [|discriminate]. injection ST as <-.
    assert (NE : j <> i). { intros ->. rewrite F in FJ. injection FJ as <-. destruct S as [S|(e' & S1 & S2)]; congruence. } eapply OTHER; eauto; reflexivity.
  - destruct (nth_error (tasks s) j) as [u|] eqn:FJ; [|discriminate]. destruct (at_ u) as [| | |e| |] eqn:AU; try discriminate. destruct (res u) as [o'|] eqn:RU; [|discriminate]. injection ST as <-.
    destruct (Nat.eq_dec j i) as [->|NE]; [|eapply OTHER; eauto; reflexivity]. rewrite F in FJ. injection FJ as <-. exists (set_at t (Done o')). split; [apply (nth_set_same _ _ _ t), F|]. split; [exact K|]. left. destruct S as [S|(e' & S1 & S2)]; [congruence|]. cbn. congruence.
  - destruct (nth_error (procs s) p) as [x|]; [|discriminate]. destruct (gone x && negb (leaving x) && idle s p); [|discriminate]. injection ST as <-. apply SP; reflexivity.
Qed.
Lemma settled_run i o l : forall s s', inv s -> settled i o s -> run s l = Some s' -> settled i o s'.
Proof.
  induction l as [|a l IH]; intros s s' I J R; cbn [RouteModel.run] in R; [now injection R as <-|]. destruct (step s a) as [s1|] eqn:SS; [|discriminate]. eapply IH; [eapply step_inv; eauto|eapply settled_step; eauto|exact R].
Qed.

(** A request that waits, without an answer, is on the list of those that can be answered. *)
Definition listens (t : task) : Prop :=
  match knd t, at_ t with Route _ _ _, (WantWrite | Draining | Awaiting _) => res t = None -> pend t = true | Route _ _ _, WantLock => res t = None /\ pend t = false | _, _ => True end.
Definition pinv (s : st) : Prop := forall i t, nth_error (tasks s) i = Some t -> listens t.

Lemma pset s i t : pinv s -> listens t -> forall j u, nth_error (set_nth i t (tasks s)) j = Some u -> listens u.
Proof. intros J H j u. rewrite nth_set. destruct (Nat.eqb_spec j i) as [->|N]; [destruct (nth_error (tasks s) i); [intros [= <-]; exact H|discriminate]|apply J]. Qed.
Lemma panswer p v t : listens t -> listens (answer p v t).
Proof. unfold listens, answer. destruct t as [[|q z d|q r w|q z|q] a b o]; cbn; auto. destruct b; cbn; auto. destruct a; auto; destruct o; try discriminate. intros (_ & ?); discriminate. intros (_ & ?); discriminate. Qed.
Lemma pfarewell p t : listens t -> listens (farewell p t).
Proof. unfold listens, farewell. destruct t as [[|q z d|q r w|q z|q] a b o]; cbn; auto. destruct b, (q =? p); cbn; auto. destruct a; auto; destruct o; try discriminate. intros (_ & ?); discriminate. intros (_ & ?); discriminate. Qed.
Lemma leave_p s i t p x : pinv s -> nth_error (tasks s) i = Some t -> (at_ t = WantWrite \/ at_ t = Draining) -> pinv (leave s i t p x).
Proof.
  intros J F A. pose proof (J _ _ F) as H. unfold leave. destruct (knd t) eqn:K; try destruct (gone x); unfold pinv; cbn [pop_c set_task set_proc tasks]; apply pset; auto; unfold listens in *; cbn; rewrite ?K in *; auto; cbn; auto. destruct A as [A|A]; rewrite A in H; exact H.
Qed.
Lemma pstep s a s' : pinv s -> step s a = Some s' -> pinv s'.
Proof.
  intros J ST.
  assert (SP : forall s1 k, tasks s1 = tasks s -> pinv (spawn s1 k)). { intros s1 k E i t. cbn [spawn push_c tasks]. rewrite E, nth_snoc. destruct (i =? length (tasks s)); [intros [= <-]|apply J]. unfold listens. cbn. destruct k; auto. }
  destruct a as [| |k|p r v|p z|p n|p|i|i|i|i|i|p]; cbn [RouteModel.step] in ST.
  - injection ST as <-. exact J.
  - injection ST as <-. exact J.
  - destruct k; try discriminate; injection ST as <-; apply SP; reflexivity.
  - destruct (nth_error (procs s) p) as [x|]; [|discriminate]. destruct (negb (leaving x) && idle s p); [|discriminate]. injection ST as <-. apply SP; reflexivity.
  - destruct (nth_error (procs s) p) as [x|]; [|discriminate]. destruct (negb (leaving x) && idle s p); [|discriminate]. injection ST as <-. apply SP; reflexivity.
  - destruct (nth_error (procs s) p) as [x|]; [|discriminate]. destruct (negb (gone x) && (n <=? buf x)); [|discriminate]. injection ST as <-. exact J.
  - destruct (nth_error (procs s) p) as [x|]; [|discriminate]. injection ST as <-. exact J.
  - destruct (nth_error (tasks s) i) as [t|] eqn:F; [|discriminate]. destruct (first (cq s) i); [|discriminate]. unfold enter in ST. pose proof (J _ _ F) as H.
    destruct (knd t) as [|p z d|p r v|p z|p] eqn:K; destruct (at_ t) eqn:A; try discriminate.
    + injection ST as <-. unfold pinv. cbn [pop_c set_task tasks]. apply pset; auto. unfold listens. cbn. rewrite K. exact Logic.I.
    + assert (UN : pinv (pop_c (set_task s i (set_at t (Done Unroutable))))) by (unfold pinv; cbn [pop_c set_task tasks]; apply pset; auto; unfold listens; cbn; rewrite K; exact Logic.I).
      destruct (nth_error (procs s) p) as [x|]; [destruct (listed x)|]; injection ST as <-; auto. unfold pinv. cbn [set_proc set_task tasks]. apply pset; auto. unfold listens. cbn. auto.
    + injection ST as <-. unfold pinv. cbn [pop_c set_task tasks]. apply pset; auto. exact Logic.I.
    + assert (P1 : pinv (pop_c (set_task s i (set_at t (Done Ok))))) by (unfold pinv; cbn [pop_c set_task tasks]; apply pset; auto; unfold listens; cbn; rewrite K; exact Logic.I). cbv zeta in ST. match type of ST with match ?e with Some _ => _ | None => _ end = _ => destruct e as [q|] eqn:R end; injection ST as <-; auto.
      intros j u E. cbn [set_task tasks] in E. rewrite nth_set in E. destruct (Nat.eqb_spec j r) as [->|N]; [|exact (P1 _ _ E)]. rewrite R in E. injection E as <-. apply panswer. exact (P1 _ _ R).
    + destruct (nth_error (procs s) p) as [x|]; [|discriminate]. injection ST as <-. unfold pinv. cbn [set_proc pop_c set_task tasks]. apply pset; auto. unfold listens. cbn. rewrite K. exact Logic.I.
    + destruct (nth_error (procs s) p) as [x|]; [|discriminate]. injection ST as <-. intros j u E. cbn [set_proc pop_c set_task tasks] in E. rewrite nth_error_map in E. destruct (nth_error (set_nth i (set_at t (Done Ok)) (tasks s)) j) as [u0|] eqn:E0; [|discriminate]. injection E as <-. apply pfarewell. revert j u0 E0. apply pset; auto. unfold listens. cbn. rewrite K. exact Logic.I.
  - destruct (nth_error (tasks s) i) as [t|] eqn:F; [|discriminate]. destruct (at_ t) eqn:A; try discriminate. unfold write in ST. destruct (nth_error (procs s) (target t)) as [x|]; [|discriminate]. destruct (first (wq x) i); [|discriminate]. cbv zeta in ST. destruct (_ || _); injection ST as <-; [apply leave_p; auto|]. unfold pinv. cbn [set_proc set_task tasks]. apply pset; auto. pose proof (J _ _ F) as H. unfold listens in *. cbn. rewrite A in H. destruct (knd t); auto.
  - destruct (nth_error (tasks s) i) as [t|] eqn:F; [|discriminate]. destruct (at_ t) eqn:A; try discriminate. destruct (nth_error (procs s) (target t)) as [x|]; [|discriminate]. destruct (gone x || (buf x <=? low)); [|discriminate]. injection ST as <-. apply leave_p; auto.
  - destruct (nth_error (tasks s) i) as [t|] eqn:F; [|discriminate]. destruct (at_ t) as [| | |e| |] eqn:A; try discriminate. destruct (res t); [discriminate|]. destruct (e <=? now s); [|discriminate]. injection ST as <-. unfold pinv. cbn [push_c set_task tasks]. apply pset; auto. unfold listens. cbn. destruct (knd t); exact Logic.I.
  - destruct (nth_error (tasks s) i) as [t|] eqn:F; [|discriminate]. destruct (at_ t) as [| | |e| |] eqn:A; try discriminate. destruct (res t); [|discriminate]. injection ST as <-. unfold pinv. cbn [set_task tasks]. apply pset; auto. unfold listens. cbn. destruct (knd t); exact Logic.I.
  - destruct (nth_error (procs s) p) as [x|]; [|discriminate]. destruct (gone x && negb (leaving x) && idle s p); [|discriminate]. injection ST as <-. apply SP; reflexivity.
Qed.
Lemma prun l : forall s s', pinv s -> run s l = Some s' -> pinv s'.
Proof. induction l as [|a l IH]; intros s s' J R; cbn [RouteModel.run] in R; [now injection R as <-|]. destruct (step s a) as [s1|] eqn:SS; [|discriminate]. eapply IH; [eapply pstep; eauto|exact R]. Qed.

Lemma answer_settles s s' i j p z d v t u e : pinv s -> step s (Enter j) = Some s' -> nth_error (tasks s) j = Some u -> knd u = Resp p i v -> nth_error (tasks s) i = Some t -> knd t = Route p z d -> at_ t = Awaiting e -> res t = None -> settled i (Answered v) s'.
Proof.
  intros J ST FU KU FT KT AT RT. pose proof (J _ _ FT) as L. unfold listens in L. rewrite KT, AT in L. specialize (L RT). cbn [RouteModel.step] in ST. rewrite FU in ST. destruct (first (cq s) j); [|discriminate]. unfold enter in ST. rewrite KU in ST. destruct (at_ u) eqn:AU; try discriminate. cbv zeta in ST. cbn [pop_c set_task tasks] in ST.
  assert (NE : i <> j) by (intros ->; congruence). rewrite nth_set_other, FT in ST by auto. injection ST as <-. exists (answer p v t). split; [cbn [set_task pop_c tasks]; apply (nth_set_same _ _ _ t); rewrite nth_set_other by auto; exact FT|].
  unfold answer. rewrite KT, L. cbn. split; [eauto|]. right. exists e. rewrite RT, Nat.eqb_refl. auto.
Qed.

(** ** Killing *)
Lemma kill_all ps : forall s, (forall p, In p ps -> p < length (procs s)) -> exists s', run s (map Kill ps) = Some s' /\ sk s' = sk s /\ (forall p x, nth_error (procs s') p = Some x -> exists x0, nth_error (procs s) p = Some x0 /\ buf x = buf x0 /\ (gone x = false -> gone x0 = false /\ ~ In p ps)).
Proof.
  induction ps as [|q ps IH]; intros s H; cbn [map RouteModel.run]; [exists s; repeat split; auto; intros p x E; exists x; auto|].
  assert (L : q < length (procs s)) by (apply H; left; reflexivity). apply nth_error_Some in L. destruct (nth_error (procs s) q) as [y|] eqn:P; [|congruence]. cbn [RouteModel.step]. rewrite P. destruct (IH (set_proc s q (mkProc true (leaving y) (listed y) (buf y) (wq y)))) as (s' & R & E & Q); [intros p IN; cbn; rewrite length_set; apply H; right; exact IN|].
  exists s'. split; [exact R|]. split; [exact E|]. intros p x X. destruct (Q p x X) as (x0 & X0 & B & G). cbn [set_proc procs] in X0. rewrite nth_set in X0. destruct (Nat.eqb_spec p q) as [->|N].
  - rewrite P in X0. injection X0 as <-. exists y. split; [exact P|]. split; [exact B|]. intros Z. destruct (G Z) as (Z' & _). discriminate.
  - exists x0. split; [exact X0|]. split; [exact B|]. intros Z. destruct (G Z) as (Z1 & Z2). split; [exact Z1|]. intros [->|IN]; [congruence|auto].
Qed.
End Proofs.
