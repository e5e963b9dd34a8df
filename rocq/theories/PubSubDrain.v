(** Consumption terminates and leaves every buffer free. *)
From Coq Require Import List ZArith Arith Bool Lia.
From Verif Require Import BackpressureModel BackpressureProofs CacheModel CacheProofs TransportModel PubSubModel PubSubSpec PubSubInv PubSubSub PubSubSteps PubSubSteps2 PubSubSteps3 PubSubSteps4 PubSubSteps5 PubSubLive.
Import ListNotations.

Section Sums.
Fixpoint sum (f : nat -> nat) (n : nat) : nat := match n with 0 => 0 | S k => sum f k + f k end.

Lemma sum_ext f g n : (forall j, j < n -> f j = g j) -> sum f n = sum g n.
Proof. induction n; intros H; cbn; [reflexivity|]. rewrite IHn, H by auto. reflexivity. Qed.

Lemma sum_one f g n k : k < n -> (forall j, j <> k -> g j = f j) -> sum g n + f k = sum f n + g k.
Proof.
  induction n; intros Hk H; [lia|]. cbn. destruct (Nat.eq_dec k n) as [->|N].
  - rewrite (sum_ext g f n); [lia|]. intros j Hj. apply H. lia.
  - rewrite (H n) by auto. specialize (IHn ltac:(lia) H). lia.
Qed.

Fixpoint suml (f : nat -> nat) (l : list nat) : nat := match l with [] => 0 | a :: t => f a + suml f t end.
End Sums.

Section Drain.
Context {Obj : Type}.
Variable cfg : config.
Hypothesis W : wf cfg.
Notation st := (st Obj).
Notation pubst := (pubst Obj).
Notation chst := (chst Obj).
Notation sbst := (sbst Obj).
Notation nb := (nb cfg).
Notation pubof := (pubof cfg).
Notation pend := (pend cfg).
Notation is_local := (is_local cfg).
Notation is_shm := (is_shm cfg).
Notation FInv := (FInv cfg).
Notation step := (step cfg).
Implicit Types x y z : st.
Implicit Types P : pubst.
Implicit Types C : chst.
Implicit Types o : Obj.
Implicit Types h : handle Obj.

(** Nothing numbered [N] or higher is in use. *)
Record sup (N : nat) x : Prop := {
  n_born : forall c, c_born (chs x c) = true -> c < N;
  n_read : forall s r, In r (s_reading (sbs x s)) -> s < N /\ r_chan r < N;
  n_reg : forall s p c, s_chan (sbs x s) p = Some c -> s < N;
  n_phase : forall p, p_phase (pubs x p) <> Idle -> p < N;
  n_chans : forall p, p_chans (pubs x p) <> [] -> p < N }.

Lemma sup_mono N N' x : N <= N' -> sup N x -> sup N' x.
Proof.
  intros L S. constructor; intros.
  - apply (n_born _ _ S) in H. lia.
  - apply (n_read _ _ S) in H. lia.
  - apply (n_reg _ _ S) in H. lia.
  - apply (n_phase _ _ S) in H. lia.
  - apply (n_chans _ _ S) in H. lia.
Qed.

(** What the inner functions leave alone. *)
Record same x y : Prop := {
  q_born : forall c, c_born (chs y c) = c_born (chs x c);
  q_read : forall s r, In r (s_reading (sbs y s)) -> In r (s_reading (sbs x s));
  q_chan : forall s, s_chan (sbs y s) = s_chan (sbs x s);
  q_phase : forall p, p_phase (pubs y p) = p_phase (pubs x p);
  q_chans : forall p, p_chans (pubs y p) = p_chans (pubs x p);
  q_clients : forall c, c_clients (chs y c) = c_clients (chs x c);
  q_re : forall c, c_re (chs y c) = c_re (chs x c);
  q_wire : forall c, c_wire (chs y c) = c_wire (chs x c) }.

Lemma same_refl x : same x x. Proof. constructor; auto. Qed.
Lemma same_trans x y z : same x y -> same y z -> same x z.
Proof.
  intros A B. constructor; intros; try (etransitivity; [apply B|apply A]).
  apply (q_read _ _ A), (q_read _ _ B). assumption.
Qed.

Lemma same_core x y : core x y -> (forall s r, In r (s_reading (sbs y s)) -> In r (s_reading (sbs x s))) ->
  (forall s, s_chan (sbs y s) = s_chan (sbs x s)) -> same x y.
Proof.
  intros K A B. constructor; auto; intros; try apply K.
  - now rewrite (k_pub _ _ K).
  - now rewrite (k_pub _ _ K).
Qed.

Lemma same_release x c m s : same x (release cfg x c m s).
Proof. apply same_core; [apply core_release|..]; intros; rewrite ?release_sbs in *; auto. Qed.

Lemma same_drop x s : same x (drop_oldest cfg x s).
Proof.
  apply same_core; [apply drop_oldest_core|..].
  - intros t r. destruct (Nat.eq_dec t s) as [->|N]; [|now rewrite drop_oldest_other].
    rewrite (proj1 (proj2 (proj2 (drop_oldest_self cfg x s)))). auto.
  - intros t. destruct (Nat.eq_dec t s) as [->|N]; [|now rewrite drop_oldest_other]. apply (drop_oldest_self cfg x s).
Qed.

Lemma same_push x s p m : same x (push cfg x s p m).
Proof.
  unfold push. cbn zeta. apply same_trans with (y := if queue_full cfg x s then drop_oldest cfg x s else x).
  - destruct (queue_full cfg x s); [apply same_drop|apply same_refl].
  - constructor; auto; intros t; cbn; unfold upd; destruct (Nat.eqb_spec t s) as [->|]; auto.
Qed.

Lemma same_notify1 c m x s : same x (notify1 cfg c m x s).
Proof.
  unfold notify1. cbn zeta. eapply same_trans; [|apply same_push].
  constructor; auto; intros d; cbn; unfold upd; destruct (Nat.eqb_spec d c) as [->|]; auto.
Qed.

Lemma same_notify c m l : forall x, same x (fold_left (notify1 cfg c m) l x).
Proof. induction l; intros x; cbn; [apply same_refl|]. eapply same_trans; [apply same_notify1|apply IHl]. Qed.

Lemma same_setC x c C' : c_born C' = c_born (chs x c) -> c_clients C' = c_clients (chs x c) -> c_re C' = c_re (chs x c) ->
  c_wire C' = c_wire (chs x c) -> same x (setC x c C').
Proof. intros. constructor; auto; intros d; cbn; unfold upd; destruct (Nat.eqb_spec d c) as [->|]; auto. Qed.

Lemma same_setP x p P' : p_phase P' = p_phase (pubs x p) -> p_chans P' = p_chans (pubs x p) -> same x (setP x p P').
Proof. intros. constructor; auto; intros q; cbn; unfold upd; destruct (Nat.eqb_spec q p) as [->|]; auto. Qed.

Lemma same_receive x c e : same x (receive cfg x c e).
Proof.
  unfold receive. cbn zeta. set (y := setC x c _).
  assert (same x y) by (apply same_setC; auto).
  assert (same x (notify cfg y c (e_id e))) by (eapply same_trans; [eassumption|apply same_notify]).
  destruct (anyone _ _ _ _); [assumption|]. eapply same_trans; [eassumption|]. apply same_setC; reflexivity.
Qed.

Lemma same_put_local x c m o : same x (put_local cfg x c m o).
Proof.
  unfold put_local. cbn zeta. set (y := setC x c _).
  assert (same x y) by (apply same_setC; auto).
  assert (same x (notify cfg y c m)) by (eapply same_trans; [eassumption|apply same_notify]).
  destruct (anyone _ _ _ _); [|assumption]. eapply same_trans; [eassumption|].
  set (z := notify cfg y c m). apply same_trans with (y := setC z c (with_cache (chs z c) (cache_put (c_cache (chs z c)) {| e_obj := Val o; e_id := m; e_mem := None |})));
    [apply same_setC; reflexivity|apply same_setP; reflexivity].
Qed.

Section Measure.
Variable kcl : nat -> nat.
Variable N : nat.

Definition fw c := 3 * kcl c + 3.
Definition WC c C := fw c * length (c_wire C) + (match c_re C with Some _ => fw c - 1 | None => 0 end) + length (c_ackw C).
Definition WS (S : sbst) := 3 * length (s_queue S) + 2 * length (s_reading S).
Definition todoW l := suml (fun c => fw c + 1) l.
Definition WP P := length (p_chans P) + match p_phase P with Growing _ => 1 + todoW (non_local cfg (p_chans P)) | Draining _ _ t => 1 + todoW t | _ => 0 end.
Definition M x := sum (fun c => WC c (chs x c)) N + sum (fun s => WS (sbs x s)) N + sum (fun p => WP (pubs x p)) N.

Lemma M_setC x c C' : c < N -> M (setC x c C') + WC c (chs x c) = M x + WC c C'.
Proof.
  intros H. unfold M. cbn [setC setS setP pubs chs sbs]. pose proof (sum_one (fun c => WC c (chs x c)) (fun d => WC d (upd (chs x) c C' d)) N c H) as E.
  cbv beta in E. rewrite upd_same in E. specialize (E ltac:(intros j Hj; now rewrite upd_other)). cbv beta in E. lia.
Qed.
Lemma M_setS x s S' : s < N -> M (setS x s S') + WS (sbs x s) = M x + WS S'.
Proof.
  intros H. unfold M. cbn [setC setS setP pubs chs sbs]. pose proof (sum_one (fun c => WS (sbs x c)) (fun d => WS (upd (sbs x) s S' d)) N s H) as E.
  cbv beta in E. rewrite upd_same in E. specialize (E ltac:(intros j Hj; now rewrite upd_other)). cbv beta in E. lia.
Qed.
Lemma M_setP x p P' : p < N -> M (setP x p P') + WP (pubs x p) = M x + WP P'.
Proof.
  intros H. unfold M. cbn [setC setS setP pubs chs sbs]. pose proof (sum_one (fun c => WP (pubs x c)) (fun d => WP (upd (pubs x) p P' d)) N p H) as E.
  cbv beta in E. rewrite upd_same in E. specialize (E ltac:(intros j Hj; now rewrite upd_other)). cbv beta in E. lia.
Qed.
Lemma M_setC_same x c C' : WC c C' = WC c (chs x c) -> M (setC x c C') = M x.
Proof. intros H. unfold M. cbn [setC setS setP pubs chs sbs]. f_equal; f_equal. apply sum_ext. intros d _. unfold upd. destruct (Nat.eqb_spec d c) as [->|]; auto. Qed.
Lemma M_setP_same x p P' : WP P' = WP (pubs x p) -> M (setP x p P') = M x.
Proof. intros H. unfold M. cbn [setC setS setP pubs chs sbs]. f_equal. apply sum_ext. intros d _. unfold upd. destruct (Nat.eqb_spec d p) as [->|]; auto. Qed.

Lemma WC_ack c C k m : WC c (with_ackw (with_cache C k) (c_ackw C ++ [m])) = WC c C + 1.
Proof. unfold WC. cbn [c_wire c_re c_ackw with_ackw with_cache]. rewrite app_length. cbn [length]. lia. Qed.

Lemma M_release x c m s : c < N -> M (release cfg x c m s) <= M x + 1.
Proof.
  intros H. unfold release. cbn zeta. set (C := with_cbp (chs x c) _).
  assert (E0 : M (setC x c C) = M x) by (apply M_setC_same; reflexivity).
  destruct (bp_available _ _) as [[|]|]; try (rewrite E0; lia).
  destruct (cache_release _ _) as [k [|]]; [|rewrite E0; lia].
  assert (E1 : M (setC (setC x c C) c (with_cache C k)) = M x).
  { rewrite M_setC_same; [exact E0|]. cbn. rewrite upd_same. reflexivity. }
  destruct (own cfg c).
  - rewrite M_setP_same; [rewrite E1; lia|reflexivity].
  - pose proof (M_setC (setC (setC x c C) c (with_cache C k)) c (with_ackw (with_cache C k) (c_ackw C ++ [m])) H) as E.
    cbn [setC chs] in E. rewrite upd_same in E. change (WC c (with_cache C k)) with (WC c C) in E. rewrite WC_ack in E.
    change {| pubs := pubs x; chs := upd (chs x) c C; sbs := sbs x |} with (setC x c C). rewrite E1 in E. lia.
Qed.

Definition low x : Prop := forall s p c, s_chan (sbs x s) p = Some c -> c < N.

Lemma M_drop x s : s < N -> low x -> M (drop_oldest cfg x s) <= M x.
Proof.
  intros H L. unfold drop_oldest. destruct (s_queue (sbs x s)) as [|[p m] q] eqn:Q; [lia|]. cbn zeta.
  set (y := setS x s (log_ev (with_queue (sbs x s) q) p (EDrop m))).
  pose proof (M_setS x s (log_ev (with_queue (sbs x s) q) p (EDrop m)) H) as E. fold y in E. unfold WS in E. cbn in E. rewrite Q in E. cbn in E.
  destruct (s_chan (sbs y s) p) as [c|] eqn:Ch; [|lia].
  assert (c < N). { apply (L s p c). revert Ch. unfold y. cbn. now rewrite upd_same. }
  pose proof (M_release y c m s H0). lia.
Qed.

Lemma M_push x s p m : s < N -> low x -> M (push cfg x s p m) <= M x + 3.
Proof.
  intros H L. unfold push. cbn zeta. set (y := if queue_full cfg x s then drop_oldest cfg x s else x).
  assert (M y <= M x) by (unfold y; destruct (queue_full cfg x s); auto using M_drop).
  pose proof (M_setS y s (with_queue (sbs y s) (s_queue (sbs y s) ++ [(p, m)])) H) as E. unfold WS in E. cbn in E. rewrite app_length in E. cbn in E. lia.
Qed.

Lemma M_notify c m l : forall x, (forall s, In s l -> s < N) -> low x -> M (fold_left (notify1 cfg c m) l x) <= M x + 3 * length l.
Proof.
  induction l as [|s l IH]; intros x H L; cbn [fold_left length]; [lia|].
  assert (M (notify1 cfg c m x s) <= M x + 3).
  { unfold notify1. cbn zeta. set (y := setC x c _). assert (E : M y = M x) by (apply M_setC_same; reflexivity).
    rewrite <- E. apply M_push; [apply H; now left|exact L]. }
  specialize (IH (notify1 cfg c m x s) (fun t Ht => H t (or_intror Ht))). unfold low in IH.
  assert (L' : forall t p d, s_chan (sbs (notify1 cfg c m x s) t) p = Some d -> d < N).
  { intros t p d. rewrite (q_chan _ _ (same_notify1 c m x s)). apply L. }
  specialize (IH L'). lia.
Qed.

Lemma M_receive x c e : c < N -> (forall s, In s (c_clients (chs x c)) -> s < N) -> low x -> length (c_clients (chs x c)) = kcl c ->
  M (receive cfg x c e) <= M x + 3 * kcl c + 1.
Proof.
  intros H Hs L K. unfold receive. cbn zeta. set (y := setC x c _).
  assert (E : M y = M x) by (apply M_setC_same; reflexivity).
  assert (Cy : c_clients (chs y c) = c_clients (chs x c)) by (unfold y; cbn; now rewrite upd_same).
  assert (B : M (notify cfg y c (e_id e)) <= M x + 3 * kcl c).
  { unfold notify. rewrite <- K, <- E, <- Cy. apply M_notify; [rewrite Cy; exact Hs|exact L]. }
  destruct (anyone _ _ _ _); [lia|]. set (z := notify cfg y c (e_id e)) in *.
  pose proof (M_setC z c (with_ackw (with_cache (chs z c) (fst (cache_release (c_cache (chs z c)) (e_id e)))) (c_ackw (chs z c) ++ [e_id e])) H) as E2.
  rewrite WC_ack in E2. lia.
Qed.

Lemma M_down x c : c < N -> M (chan_down x c) <= M x.
Proof.
  intros H. unfold chan_down. cbn zeta. match goal with |- M (setC x c ?C) <= _ => pose proof (M_setC x c C H) as E end. unfold WC in E. cbn in E. lia.
Qed.

Lemma M_take x c m g : c < N -> (forall s, In s (c_clients (chs x c)) -> s < N) -> low x -> length (c_clients (chs x c)) = kcl c ->
  M (take_shm cfg x c m g) <= M x + 3 * kcl c + 1.
Proof.
  intros H Hs L K. unfold take_shm. cbn zeta. pose proof (M_down x c H).
  destruct (entry_of_slot _ _ _) as [e|]; [|lia]. destruct (e_id e =? m); [|lia]. now apply M_receive.
Qed.

Lemma WC_wire c C f : WC c (with_wire C (c_wire C ++ [f])) = WC c C + fw c.
Proof. unfold WC. cbn [c_wire c_re c_ackw with_wire]. rewrite app_length. cbn [length]. rewrite Nat.mul_add_distr_l, Nat.mul_1_r. lia. Qed.

Lemma M_next x p o todo : p < N -> (forall c, In c todo -> c < N) -> (exists ph, p_phase (pubs x p) = ph /\ match ph with
    Growing _ => todoW (non_local cfg (p_chans (pubs x p))) = todoW todo | Draining _ _ t => t = todo | _ => False end) ->
  M (next_channel cfg x p o todo) < M x.
Proof.
  intros Hp Hc (ph & Eph & H). destruct todo as [|c t]; cbn [next_channel].
  - unfold finish. cbn zeta. match goal with |- M (setP x p ?P) < _ => pose proof (M_setP x p P Hp) as E end. unfold WP in E. cbn in E. rewrite Eph in E.
    destruct ph; try contradiction; lia.
  - cbn zeta. assert (Hcn : c < N) by (apply Hc; now left). unfold write_frame.
    set (y := setC x c (with_wire (chs x c) (c_wire (chs x c) ++ [frame_for cfg (pubs x p) c (p_nxt (pubs x p)) o]))).
    pose proof (M_setC x c (with_wire (chs x c) (c_wire (chs x c) ++ [frame_for cfg (pubs x p) c (p_nxt (pubs x p)) o])) Hcn) as E. fold y in E.
    rewrite WC_wire in E.
    pose proof (M_setP y p (with_phase (pubs y p) (Draining o c t)) Hp) as E2. change (pubs y p) with (pubs x p) in *.
    assert (W1 : WP (with_phase (pubs x p) (Draining o c t)) = length (p_chans (pubs x p)) + (1 + todoW t)) by reflexivity.
    assert (W2 : WP (pubs x p) = length (p_chans (pubs x p)) + (1 + (fw c + 1 + todoW t))).
    { unfold WP. rewrite Eph. destruct ph; try contradiction; [rewrite H|subst]; reflexivity. }
    rewrite W1, W2 in E2. lia.
Qed.
End Measure.

Lemma sup_same N x y : sup N x -> same x y -> sup N y.
Proof.
  intros S Q. constructor; intros.
  - rewrite (q_born _ _ Q) in H. eapply (n_born _ _ S); eauto.
  - eapply (n_read _ _ S). eapply (q_read _ _ Q); eauto.
  - rewrite (q_chan _ _ Q) in H. eapply (n_reg _ _ S); eauto.
  - rewrite (q_phase _ _ Q) in H. now apply (n_phase _ _ S).
  - rewrite (q_chans _ _ Q) in H. now apply (n_chans _ _ S).
Qed.

Lemma sup_setP N x p P' : p < N -> sup N x -> sup N (setP x p P').
Proof.
  intros H S. constructor; try apply S; intros q; cbn; unfold upd; destruct (Nat.eqb_spec q p) as [->|]; auto; apply S.
Qed.

Lemma sup_setC N x c C' : (c_born C' = true -> c < N) -> sup N x -> sup N (setC x c C').
Proof. intros H S. constructor; try apply S. intros d. cbn. unfold upd. destruct (Nat.eqb_spec d c) as [->|]; auto; apply S. Qed.

Lemma sup_next N x p o todo : p < N -> sup N x -> sup N (next_channel cfg x p o todo).
Proof.
  intros H S. destruct todo as [|c t]; cbn [next_channel]; [now apply sup_setP|]. cbn zeta. apply sup_setP; [exact H|].
  apply sup_setC; [|exact S]. cbn. apply S.
Qed.

Lemma sup_start N x p o grow : p < N -> sup N x -> sup N (start cfg x p o grow).
Proof.
  intros H S. unfold start. cbn zeta. set (y := setP x p _). assert (Sy : sup N y) by (now apply sup_setP).
  set (z := match find is_local _ with Some c => _ | None => y end).
  assert (Sz : sup N z) by (unfold z; destruct (find _ _); [eapply sup_same; [exact Sy|apply same_put_local]|exact Sy]).
  destruct (existsb _ _); [destruct grow|].
  - now apply sup_setP.
  - apply sup_next; auto. now apply sup_setP.
  - now apply sup_next.
Qed.

Lemma sup_try N x p o grow : p < N -> sup N x -> sup N (try_send cfg x p o grow).
Proof. intros H S. unfold try_send. cbn zeta. destruct (bp_available _ _) as [[|]|]; [now apply sup_start|now apply sup_setP..]. Qed.

Lemma sup_take N x c m g : sup N x -> sup N (take_shm cfg x c m g).
Proof.
  intros S. assert (D : sup N (chan_down x c)) by (apply sup_setC; [cbn; apply S|exact S]).
  unfold take_shm. cbn zeta. destruct (entry_of_slot _ _ _) as [e|]; [|exact D]. destruct (e_id e =? m); [|exact D].
  eapply sup_same; [exact S|apply same_receive].
Qed.

Definition ids_lt (N : nat) (l : label Obj) : Prop :=
  match l with LBroadcast p _ _ => p < N | LConnect c => c < N /\ pubof c < N | LJoin s c => s < N | _ => True end.

Lemma nonempty_in {A} (l : list A) a : In a l -> l <> []. Proof. intros H ->. destruct H. Qed.

Lemma existsb_in c l : existsb (Nat.eqb c) l = true -> In c l.
Proof. intros H. apply existsb_exists in H. destruct H as (d & A & B). apply Nat.eqb_eq in B. now subst. Qed.

Lemma step_sup N x l x' : FInv x -> sup N x -> ids_lt N l -> step x l = Some x' -> sup N x'.
Proof.
  intros F S I St. pose proof F as [[[A B] SI] G]. destruct l; cbn in St, I.
  - destruct (p_phase (pubs x p)) eqn:Ph; try discriminate. injection St as <-. destruct (p_run (pubs x p)); [now apply sup_try|now apply sup_setP].
  - assert (Hp : p_phase (pubs x p) <> Idle -> p < N) by apply S.
    destruct (p_phase (pubs x p)) as [|o [|]|o|o|o c t] eqn:Ph; try discriminate.
    + injection St as <-. apply sup_try; auto. apply Hp. discriminate.
    + destruct (bp_available _ _) as [[|]|] eqn:Av; try discriminate. injection St as <-. apply sup_start; auto. apply Hp. discriminate.
  - assert (Hp : p_phase (pubs x p) <> Idle -> p < N) by apply S.
    destruct (p_phase (pubs x p)) eqn:Ph; try discriminate. specialize (Hp ltac:(discriminate)). injection St as <-. unfold grown. cbn zeta.
    apply sup_next; auto. apply sup_setP; auto. now apply sup_setP.
  - assert (Hp : p_phase (pubs x p) <> Idle -> p < N) by apply S.
    destruct (p_phase (pubs x p)) eqn:Ph; try discriminate. specialize (Hp ltac:(discriminate)). injection St as <-. apply sup_next; auto. now apply sup_setP.
  - assert (Hp : p_phase (pubs x p) <> Idle -> p < N) by apply S.
    destruct (p_phase (pubs x p)) eqn:Ph; try discriminate. specialize (Hp ltac:(discriminate)). destruct (c_up (chs x cur)); [discriminate|]. injection St as <-. now apply sup_next.
  - injection St as <-. eapply sup_same; [exact S|]. apply same_setP; reflexivity.
  - injection St as <-. destruct (p_phase (pubs x p)) eqn:Ph.
    1,3,4,5: (eapply sup_same; [exact S|]; apply same_setP; [cbn; now rewrite Ph|reflexivity]).
    apply sup_setP; [|exact S]. apply (n_phase _ _ S). congruence.
  - destruct (c_up (chs x c)); [|discriminate]. destruct (c_re (chs x c)); [discriminate|].
    destruct (c_wire (chs x c)) as [|f w]; [discriminate|].
    assert (Sx : sup N (setC x c (with_wire (chs x c) w))) by (apply sup_setC; [cbn; apply S|exact S]).
    destruct f as [m g|m o].
    + destruct (c_gen (chs x c) =? g); injection St as <-; [now apply sup_take|]. apply sup_setC; [cbn; apply S|exact S].
    + injection St as <-. eapply sup_same; [exact Sx|apply same_receive].
  - destruct (c_up (chs x c)); [|discriminate]. destruct (c_re (chs x c)) as [[[keys m] g]|]; [|discriminate].
    destruct (reput _ _ _ _ _ _); injection St as <-; [apply sup_take|]; (apply sup_setC; [cbn; apply S|exact S]).
  - destruct (c_ackw (chs x c)); [discriminate|]. destruct (existsb _ _); [|discriminate]. injection St as <-.
    eapply sup_same; [exact S|]. eapply same_trans with (y := setC x c (with_ackw (chs x c) l)); [apply same_setC; reflexivity|apply same_setP; reflexivity].
  - destruct (s_queue (sbs x s)) as [|[p m] q] eqn:Q; [discriminate|]. cbn in St.
    destruct (s_chan (sbs x s) p) as [c|] eqn:Ch.
    + destruct (cache_get (c_cache (chs x c)) m) as [h|] eqn:Get; injection St as <-.
      * pose proof (b_conn _ _ _ _ _ (proj1 SI s) p c Ch) as (_ & _ & Bo).
        constructor; try apply S; intros t; cbn; unfold upd; destruct (Nat.eqb_spec t s) as [->|]; cbn; try apply S.
        intros r H. apply in_app_or in H. destruct H as [H|[<-|[]]]; [eapply (n_read _ _ S); eauto|]. cbn.
        split; [eapply (n_reg _ _ S); eauto|eapply (n_born _ _ S); eauto].
      * eapply sup_same; [|apply same_release]. eapply sup_same; [exact S|].
        constructor; auto; intros t; cbn; unfold upd; destruct (Nat.eqb_spec t s) as [->|]; auto.
    + injection St as <-. eapply sup_same; [exact S|].
      constructor; auto; intros t; cbn; unfold upd; destruct (Nat.eqb_spec t s) as [->|]; auto.
  - destruct (nth_error (s_reading (sbs x s)) k) as [r|] eqn:Nr; [|discriminate]. injection St as <-.
    eapply sup_same; [|apply same_release]. eapply sup_same; [exact S|].
    constructor; auto; intros t; cbn; unfold upd; destruct (Nat.eqb_spec t s) as [->|]; auto. cbn. intros r' H. eapply in_remove_nth; eauto.
  - destruct I as [Ic Ip]. destruct (c_born (chs x c)); [discriminate|].
    destruct (p_phase (pubs x (pubof c))); try discriminate;
    (destruct (is_local c && existsb is_local (p_chans (pubs x (pubof c))))%bool; [discriminate|]; injection St as <-; apply sup_setC; [auto|]; now apply sup_setP).
  - destruct (c_up (chs x c)); [|discriminate]. injection St as <-. apply sup_setC; [cbn; apply S|exact S].
  - destruct (c_up (chs x c)); [discriminate|].
    destruct (p_phase (pubs x (pubof c))); try discriminate;
    (destruct (existsb _ _) eqn:Ex; [|discriminate]; injection St as <-; apply sup_setP; [|exact S]; apply (n_chans _ _ S); eapply nonempty_in, existsb_in; exact Ex).
  - destruct (c_up (chs x c)); [|discriminate]. destruct (s_chan (sbs x s) (pubof c)); [discriminate|]. injection St as <-.
    assert (Sx : forall C', c_born C' = c_born (chs x c) -> sup N (setC x c C')) by (intros C' E; apply sup_setC; [rewrite E; apply S|exact S]).
    pose proof (Sx _ (eq_refl : c_born {| c_born := c_born (chs x c); c_up := true; c_gen := c_gen (chs x c); c_next := c_next (chs x c); c_wire := c_wire (chs x c);
                                 c_ackw := c_ackw (chs x c); c_bp := c_bp (chs x c); c_cache := c_cache (chs x c);
                                 c_clients := c_clients (chs x c) ++ [s]; c_re := c_re (chs x c) |} = _)) as Q.
    constructor; try apply Q; intros t; cbn; unfold upd at 1; destruct (Nat.eqb_spec t s) as [->|]; cbn; try apply S; auto.
  - destruct (s_chan (sbs x s) p) as [c|] eqn:Sc; [|discriminate]. injection St as <-.
    match goal with |- sup N (setS ?y _ _) => assert (Q : sup N y) by (apply sup_setC; [cbn; apply S|exact S]) end.
    constructor; try apply Q; intros t; cbn; unfold upd at 1; destruct (Nat.eqb_spec t s) as [->|]; cbn; try apply S.
    + intros r H. apply in_map_iff in H. destruct H as (r' & <- & H). destruct (n_read _ _ S s r' H). destruct (r_pub r' =? p); auto.
    + intros q d H. eapply (n_reg _ _ S); eauto.
Qed.

Lemma init_sup : sup 0 (init cfg : st).
Proof. constructor; cbn; try discriminate; try (intros ? ? []); congruence. Qed.

Lemma ids_bound (l : label Obj) : exists N, ids_lt N l.
Proof.
  destruct l; cbn; try (exists 0; exact I).
  - exists (S p). lia.
  - exists (S (c + pubof c)). lia.
  - exists (S s). lia.
Qed.

Lemma ids_mono N N' l : N <= N' -> ids_lt N l -> ids_lt N' l.
Proof. destruct l; cbn; lia. Qed.

Lemma reach_sup x : reach cfg x -> exists N, sup N x.
Proof.
  induction 1 as [|x l x' R [N S] J St]; [exists 0; apply init_sup|]. destruct (ids_bound l) as [N' I].
  exists (max N N'). eapply step_sup; [apply (reach_FInv cfg W x R)|eapply sup_mono; [|exact S]; lia|eapply ids_mono; [|exact I]; lia|exact St].
Qed.

Lemma consume_ids N l : consume l -> ids_lt N l.
Proof. destruct l; cbn; tauto. Qed.

Lemma filter_shorter c l : In c l -> length (filter (fun d => negb (d =? c)) l) < length l.
Proof.
  induction l as [|a l IH]; intros H; [destruct H|]. destruct H as [->|H].
  - cbn. rewrite Nat.eqb_refl. cbn. pose proof (filter_length_le (fun d => negb (d =? c)) l). lia.
  - specialize (IH H). cbn. destruct (a =? c); cbn; [pose proof (filter_length_le (fun d => negb (d =? c)) l)|]; lia.
Qed.

Lemma todo_filter kcl g l : todoW kcl (non_local cfg (filter g l)) <= todoW kcl (non_local cfg l).
Proof.
  unfold todoW, non_local. induction l as [|a l IH]; cbn [filter suml]; [lia|]. destruct (g a); cbn [filter]; destruct (is_local a); cbn [negb suml]; lia.
Qed.

Lemma consume_M kcl N x l x' : FInv x -> sup N x -> (forall c, length (c_clients (chs x c)) = kcl c) -> consume l -> step x l = Some x' ->
  M kcl N x' < M kcl N x.
Proof.
  intros F S K Co St. pose proof F as [[[A B] SI] G].
  assert (Lo : low N x). { intros s p c H. apply (n_born _ _ S). apply (b_conn _ _ _ _ _ (proj1 SI s) p c H). }
  assert (Cl : forall c s, In s (c_clients (chs x c)) -> s < N). { intros c s H. eapply (n_reg _ _ S). exact (proj1 (proj2 SI) c s H). }
  assert (Uc : forall c, c_up (chs x c) = true -> c < N).
  { intros c Up. apply (n_born _ _ S). exact (u_born _ _ _ _ _ _ _ _ _ (h_up _ _ _ _ _ _ _ _ _ (B c) Up)). }
  assert (Ch : forall p c, In c (p_chans (pubs x p)) -> c < N). { intros p c H. apply (n_born _ _ S). apply (g_chans _ _ _ _ (g_pc _ _ _ _ (G p)) c H). }
  destruct l; cbn in Co; try contradiction; cbn in St.
  - assert (Hp : p_phase (pubs x p) <> Idle -> p < N) by apply S.
    destruct (p_phase (pubs x p)) eqn:Ph; try discriminate. specialize (Hp ltac:(discriminate)). injection St as <-. unfold grown. cbn zeta.
    match goal with |- M _ _ (next_channel cfg (write_slot cfg ?y p o) p o _) < _ => set (z := write_slot cfg y p o) end.
    assert (Ez : p_phase (pubs z p) = Growing o /\ p_chans (pubs z p) = p_chans (pubs x p)).
    { unfold z, write_slot. cbn. rewrite !upd_same. cbn. auto. }
    assert (Mz : M kcl N z = M kcl N x).
    { unfold z, write_slot. rewrite M_setP_same by reflexivity. apply M_setP_same. reflexivity. }
    rewrite <- Mz. apply M_next; [exact Hp|..].
    + intros c H. apply in_non_local in H. now apply (Ch p).
    + exists (Growing o). split; [apply Ez|]. now rewrite (proj2 Ez).
  - assert (Hp : p_phase (pubs x p) <> Idle -> p < N) by apply S.
    destruct (p_phase (pubs x p)) as [| | | |o cur todo] eqn:Ph; try discriminate. specialize (Hp ltac:(discriminate)). injection St as <-.
    pose proof (g_drain _ _ _ _ (G p)) as D. rewrite Ph in D. destruct D as (_ & D & _).
    set (z := setP x p _). assert (Mz : M kcl N z = M kcl N x) by (apply M_setP_same; reflexivity).
    rewrite <- Mz. apply M_next; [exact Hp|..].
    + intros c H. apply (Ch p), D. now right.
    + exists (Draining o cur todo). unfold z. cbn. rewrite upd_same. cbn. auto.
  - assert (Hp : p_phase (pubs x p) <> Idle -> p < N) by apply S.
    destruct (p_phase (pubs x p)) as [| | | |o cur todo] eqn:Ph; try discriminate. specialize (Hp ltac:(discriminate)).
    destruct (c_up (chs x cur)); [discriminate|]. injection St as <-.
    pose proof (g_drain _ _ _ _ (G p)) as D. rewrite Ph in D. destruct D as (_ & D & _).
    apply M_next; [exact Hp|..].
    + intros c H. apply (Ch p), D. now right.
    + exists (Draining o cur todo). auto.
  - destruct (c_up (chs x c)) eqn:Up; [|discriminate]. destruct (c_re (chs x c)) eqn:Re; [discriminate|].
    destruct (c_wire (chs x c)) as [|f w] eqn:Wi; [discriminate|]. pose proof (Uc c Up) as Hc.
    set (y := setC x c (with_wire (chs x c) w)) in *.
    assert (My : M kcl N y + fw kcl c = M kcl N x).
    { pose proof (M_setC kcl N x c (with_wire (chs x c) w) Hc) as E. fold y in E. unfold WC in E. cbn [c_wire c_re c_ackw with_wire] in E.
      rewrite Wi in E. cbn [length] in E. rewrite Nat.mul_succ_r in E. lia. }
    assert (Cy : c_clients (chs y c) = c_clients (chs x c)) by (unfold y; cbn; now rewrite upd_same).
    assert (Hs : forall s, In s (c_clients (chs y c)) -> s < N) by (rewrite Cy; apply Cl).
    assert (Ky : length (c_clients (chs y c)) = kcl c) by (now rewrite Cy).
    unfold fw in My.
    destruct f as [m g|m o].
    + destruct (c_gen (chs x c) =? g); injection St as <-.
      * pose proof (M_take kcl N y c m g Hc Hs Lo Ky). lia.
      * match goal with |- M _ _ (setC x c ?C) < _ => pose proof (M_setC kcl N x c C Hc) as E end. unfold WC in E. cbn [c_wire c_re c_ackw] in E.
        rewrite Wi, Re in E. cbn [length] in E. rewrite Nat.mul_succ_r in E. unfold fw in *. lia.
    + injection St as <-. match goal with |- M _ _ (receive cfg y c ?e) < _ => pose proof (M_receive kcl N y c e Hc Hs Lo Ky) end. lia.
  - destruct (c_up (chs x c)) eqn:Up; [|discriminate]. destruct (c_re (chs x c)) as [[[keys m] g]|] eqn:Re; [|discriminate]. pose proof (Uc c Up) as Hc.
    destruct (reput _ _ _ _ _ _) as [k|]; injection St as <-.
    + match goal with |- M _ _ (take_shm cfg (setC x c ?C) c m g) < _ => pose proof (M_setC kcl N x c C Hc) as E; set (y := setC x c C) in * end.
      unfold WC in E. cbn [c_wire c_re c_ackw] in E. rewrite Re in E.
      assert (Cy : c_clients (chs y c) = c_clients (chs x c)) by (unfold y; cbn; now rewrite upd_same).
      assert (Hs : forall s, In s (c_clients (chs y c)) -> s < N) by (rewrite Cy; apply Cl).
      assert (Ky : length (c_clients (chs y c)) = kcl c) by (now rewrite Cy).
      pose proof (M_take kcl N y c m g Hc Hs Lo Ky). unfold fw in *. lia.
    + unfold chan_down. cbn zeta. match goal with |- M _ _ (setC x c ?C) < _ => pose proof (M_setC kcl N x c C Hc) as E end.
      unfold WC in E. cbn [c_wire c_re c_ackw length] in E. rewrite Re in E. unfold fw in *. lia.
  - destruct (c_ackw (chs x c)) as [|m a] eqn:Wa; [discriminate|]. destruct (existsb _ _) eqn:Ex; [|discriminate]. injection St as <-.
    apply existsb_in in Ex. rewrite M_setP_same by reflexivity.
    pose proof (M_setC kcl N x c (with_ackw (chs x c) a) (Ch _ _ Ex)) as E. unfold WC in E. cbn [c_wire c_re c_ackw with_ackw] in E. rewrite Wa in E. cbn [length] in E. lia.
  - destruct (s_queue (sbs x s)) as [|[p m] q] eqn:Q; [discriminate|]. cbn in St.
    assert (Hreg : exists c, s_chan (sbs x s) p = Some c) by (eapply head_registered; [exact SI|exact Q]).
    destruct Hreg as [c Hc]. rewrite Hc in St. assert (Hs : s < N) by (eapply (n_reg _ _ S); eauto).
    destruct (cache_get (c_cache (chs x c)) m) as [h|] eqn:Get; injection St as <-.
    + match goal with |- M _ _ (setS x s ?S') < _ => pose proof (M_setS kcl N x s S' Hs) as E end. unfold WS in E. cbn in E. rewrite Q, app_length in E. cbn in E. lia.
    + match goal with |- M _ _ (release cfg (setS x s ?S') c m s) < _ => pose proof (M_setS kcl N x s S' Hs) as E; pose proof (M_release kcl N (setS x s S') c m s (Lo _ _ _ Hc)) end.
      unfold WS in E. cbn in E. rewrite Q in E. cbn in E. lia.
  - destruct (nth_error (s_reading (sbs x s)) k) as [r|] eqn:Nr; [|discriminate]. injection St as <-. destruct (n_read _ _ S s r (nth_error_In _ _ Nr)) as [Hs Hc].
    match goal with |- M _ _ (release cfg (setS x s ?S') ?c ?m s) < _ => pose proof (M_setS kcl N x s S' Hs) as E; pose proof (M_release kcl N (setS x s S') c m s Hc) end.
    destruct (remove_nth_split k _ _ Nr) as (l1 & l2 & E1 & E2 & _). unfold WS in E. cbn in E. rewrite E2 in *. rewrite E1 in E. rewrite !app_length in E. cbn in E. lia.
  - destruct (c_up (chs x c)) eqn:Up; [discriminate|].
    destruct (p_phase (pubs x (pubof c))) eqn:Ph; try discriminate;
    (destruct (existsb _ _) eqn:Ex; [|discriminate]; injection St as <-; apply existsb_in in Ex;
     assert (Hp : pubof c < N) by (apply (n_chans _ _ S); eapply nonempty_in; exact Ex);
     match goal with |- M _ _ (setP x ?p ?P') < _ => pose proof (M_setP kcl N x p P' Hp) as E end; unfold WP in E; cbn [p_chans p_phase] in E; rewrite Ph in E; cbv iota in E;
     pose proof (filter_shorter c _ Ex); pose proof (todo_filter kcl (fun d => negb (d =? c)) (p_chans (pubs x (pubof c)))); lia).
Qed.

(** Which fields a consumption step leaves alone. *)
Lemma take_facts x c m g d : c_clients (chs (take_shm cfg x c m g) d) = c_clients (chs x d) /\ (c_re (chs x d) = None -> c_re (chs (take_shm cfg x c m g) d) = None) /\
  (forall p, p_phase (pubs (take_shm cfg x c m g) p) = p_phase (pubs x p)).
Proof.
  assert (D : c_clients (chs (chan_down x c) d) = c_clients (chs x d) /\ (c_re (chs x d) = None -> c_re (chs (chan_down x c) d) = None) /\
    (forall p, p_phase (pubs (chan_down x c) p) = p_phase (pubs x p))).
  { unfold chan_down. cbn. unfold upd. destruct (Nat.eqb_spec d c) as [->|]; auto. }
  unfold take_shm. cbn zeta. destruct (entry_of_slot _ _ _) as [e|]; [|exact D]. destruct (e_id e =? m); [|exact D].
  pose proof (same_receive x c e) as Q. rewrite (q_clients _ _ Q), (q_re _ _ Q). repeat split; auto. apply Q.
Qed.

Lemma next_facts x p o todo d : c_clients (chs (next_channel cfg x p o todo) d) = c_clients (chs x d) /\ c_re (chs (next_channel cfg x p o todo) d) = c_re (chs x d) /\
  c_up (chs (next_channel cfg x p o todo) d) = c_up (chs x d).
Proof.
  destruct todo as [|c t]; cbn; [auto|]. unfold upd. destruct (Nat.eqb_spec d c) as [->|]; auto.
Qed.

Lemma consume_clients x l x' : consume l -> step x l = Some x' -> forall d, c_clients (chs x' d) = c_clients (chs x d).
Proof.
  intros Co St d. destruct l; cbn in Co; try contradiction; cbn in St.
  - destruct (p_phase (pubs x p)); try discriminate. injection St as <-. unfold grown. cbn zeta. now rewrite (proj1 (next_facts _ _ _ _ _)).
  - destruct (p_phase (pubs x p)); try discriminate. injection St as <-. now rewrite (proj1 (next_facts _ _ _ _ _)).
  - destruct (p_phase (pubs x p)); try discriminate. destruct (c_up (chs x cur)); [discriminate|]. injection St as <-. now rewrite (proj1 (next_facts _ _ _ _ _)).
  - destruct (c_up (chs x c)); [|discriminate]. destruct (c_re (chs x c)); [discriminate|]. destruct (c_wire (chs x c)) as [|[m g|m o] w]; [discriminate|..].
    + destruct (c_gen (chs x c) =? g); injection St as <-; [rewrite (proj1 (take_facts _ _ _ _ _))|]; cbn; unfold upd; destruct (Nat.eqb_spec d c) as [->|]; auto.
    + injection St as <-. rewrite (q_clients _ _ (same_receive _ _ _)). cbn. unfold upd. destruct (Nat.eqb_spec d c) as [->|]; auto.
  - destruct (c_up (chs x c)); [|discriminate]. destruct (c_re (chs x c)) as [[[keys m] g]|]; [|discriminate].
    destruct (reput _ _ _ _ _ _); injection St as <-; [rewrite (proj1 (take_facts _ _ _ _ _))|]; cbn; unfold upd; destruct (Nat.eqb_spec d c) as [->|]; auto.
  - destruct (c_ackw (chs x c)); [discriminate|]. destruct (existsb _ _); [|discriminate]. injection St as <-. cbn. unfold upd. destruct (Nat.eqb_spec d c) as [->|]; auto.
  - destruct (s_queue (sbs x s)) as [|[p m] q]; [discriminate|]. cbn in St. destruct (s_chan (sbs x s) p) as [c|]; [|now injection St as <-].
    destruct (cache_get (c_cache (chs x c)) m); injection St as <-; [reflexivity|]. now rewrite (q_clients _ _ (same_release _ _ _ _)).
  - destruct (nth_error (s_reading (sbs x s)) k); [|discriminate]. injection St as <-. now rewrite (q_clients _ _ (same_release _ _ _ _)).
  - destruct (c_up (chs x c)); [discriminate|]. destruct (p_phase (pubs x (pubof c))); try discriminate; (destruct (existsb _ _); [|discriminate]; now injection St as <-).
Qed.

Definition passive (l : label Obj) : Prop :=
  match l with LChanRecv _ | LReattach _ | LAck _ | LGet _ | LRelease _ _ | LPubDown _ => True | _ => False end.

Lemma passive_phase x l x' : passive l -> step x l = Some x' -> forall p, p_phase (pubs x' p) = p_phase (pubs x p).
Proof.
  intros Co St q. destruct l; cbn in Co; try contradiction; cbn in St.
  - destruct (c_up (chs x c)); [|discriminate]. destruct (c_re (chs x c)); [discriminate|]. destruct (c_wire (chs x c)) as [|[m g|m o] w]; [discriminate|..].
    + destruct (c_gen (chs x c) =? g); injection St as <-; [rewrite (proj2 (proj2 (take_facts _ _ _ _ 0)))|]; reflexivity.
    + injection St as <-. now rewrite (q_phase _ _ (same_receive _ _ _)).
  - destruct (c_up (chs x c)); [|discriminate]. destruct (c_re (chs x c)) as [[[keys m] g]|]; [|discriminate].
    destruct (reput _ _ _ _ _ _); injection St as <-; [rewrite (proj2 (proj2 (take_facts _ _ _ _ 0)))|]; reflexivity.
  - destruct (c_ackw (chs x c)); [discriminate|]. destruct (existsb _ _); [|discriminate]. injection St as <-. cbn. unfold upd. destruct (Nat.eqb_spec q (pubof c)) as [->|]; auto.
  - destruct (s_queue (sbs x s)) as [|[p m] w]; [discriminate|]. cbn in St. destruct (s_chan (sbs x s) p) as [c|]; [|now injection St as <-].
    destruct (cache_get (c_cache (chs x c)) m); injection St as <-; [reflexivity|]. now rewrite (q_phase _ _ (same_release _ _ _ _)).
  - destruct (nth_error (s_reading (sbs x s)) k); [|discriminate]. injection St as <-. now rewrite (q_phase _ _ (same_release _ _ _ _)).
  - destruct (c_up (chs x c)); [discriminate|]. destruct (p_phase (pubs x (pubof c))) eqn:Ph; try discriminate;
    (destruct (existsb _ _); [|discriminate]; injection St as <-; cbn; unfold upd; destruct (Nat.eqb_spec q (pubof c)) as [->|]; [now rewrite Ph|reflexivity]).
Qed.

Lemma calm_keeps x : calm x -> keeps cfg x.
Proof. intros Ca c keys m g i _ E. rewrite Ca in E. discriminate. Qed.

Lemma consume_guards x l : consume l -> join_ok cfg x l /\ leave_ok cfg x l.
Proof. destruct l; cbn; tauto. Qed.

(** The state in the middle of a switch. *)
Lemma switch_mid x c y : FInv x -> LV cfg x -> prompt x -> calm x -> step x (LChanRecv c) = Some y -> c_re (chs y c) <> None -> prompt y /\ keeps cfg y.
Proof.
  intros F V Pr Ca St Ny. pose proof F as [[[A B] SI] G]. pose proof (FInv_LI cfg W x F V) as L. cbn in St.
  destruct (c_up (chs x c)) eqn:Up; [|discriminate]. pose proof (Ca c) as Re. rewrite Re in St.
  destruct (c_wire (chs x c)) as [|f w] eqn:Wi; [discriminate|].
  assert (Nr : forall e, c_re (chs (receive cfg (setC x c (with_wire (chs x c) w)) c e) c) = None).
  { intros e. rewrite (q_re _ _ (same_receive _ _ _)). cbn. rewrite upd_same. exact Re. }
  destruct f as [m g|m o]; [|injection St as <-; exfalso; apply Ny, Nr].
  destruct (c_gen (chs x c) =? g).
  - exfalso. injection St as <-. apply Ny. apply (proj1 (proj2 (take_facts _ _ _ _ _))). cbn. rewrite upd_same. exact Re.
  - injection St as <-. split.
    + intros p o cur todo. cbn. intros Ph. unfold upd. destruct (Nat.eqb_spec cur c) as [->|]; [|now apply (Pr p o cur todo)].
      intros _. pose proof (Pr p o c todo Ph Up) as H. unfold unanswered in *. cbn. rewrite Re, Wi in H. cbn in H.
      destruct H as [[H|H]|[[]|[[H|[]]|H]]]; auto. right; right; left; right. apply (keys_get (nb c)); [now apply (i_cg _ _ _ L)|exact H].
    + intros d keys m' g' i. cbn. unfold upd. destruct (Nat.eqb_spec d c) as [->|]; [|rewrite Ca; discriminate]. cbn. intros _ [= <- <- <-] Hi.
      apply (keys_get (nb c)) in Hi; [|now apply (i_cg _ _ _ L)]. destruct Hi as [h Hi].
      destruct (v_has _ _ V c i h Up Hi) as [u Hu]. destruct (B c) as [_ _ _ U]. specialize (U Up).
      apply (u_lease _ _ _ _ _ _ _ _ _ U) in Hu. destruct Hu as (j & [Hp|[]] & Ej). exists u.
      assert (i = j) by (eapply (has_pend_uniq cfg W x c i u j); eauto; left; eauto). subst j. exact Hp.
Qed.

Record good_state (kcl : nat -> nat) (N : nat) x : Prop := {
  gs_inv : FInv x; gs_live : LV cfg x; gs_prompt : prompt x; gs_calm : calm x; gs_sup : sup N x;
  gs_cl : forall c, length (c_clients (chs x c)) = kcl c }.

Lemma drain1_ok kcl N x y : good_state kcl N x -> drain1 cfg x y -> good_state kcl N y /\ M kcl N y < M kcl N x.
Proof.
  intros [F V Pr Ca S K] D. destruct D as [x l x' Co St Ca' Pr'|x c y x' St1 St2 Ca' Pr'].
  - destruct (consume_guards x l Co) as [J Lv]. split; [|eapply consume_M; eauto]. constructor; auto.
    + eapply step_FInv; eauto.
    + eapply step_LV; eauto using calm_keeps.
    + eapply step_sup; eauto using consume_ids.
    + intros d. rewrite (consume_clients x l x' Co St). apply K.
  - assert (Fy : FInv y) by (eapply step_FInv; [exact W|exact F| |exact St1]; exact I).
    assert (Vy : LV cfg y) by (eapply step_LV; [exact W|exact F|exact V|exact Pr|now apply calm_keeps| |exact St1]; exact I).
    assert (Sy : sup N y) by (eapply step_sup; [exact F|exact S| |exact St1]; exact I).
    assert (Ky : forall d, length (c_clients (chs y d)) = kcl d) by (intros d; rewrite (consume_clients x (LChanRecv c) y I St1); apply K).
    assert (Ny : c_re (chs y c) <> None). { intros E. cbn in St2. rewrite E in St2. destruct (c_up (chs y c)); discriminate. }
    destruct (switch_mid x c y F V Pr Ca St1 Ny) as [Py Key].
    pose proof (consume_M kcl N x (LChanRecv c) y F S K I St1). pose proof (consume_M kcl N y (LReattach c) x' Fy Sy Ky I St2).
    split; [|lia]. constructor; auto.
    + eapply step_FInv; [exact W|exact Fy| |exact St2]; exact I.
    + eapply step_LV; [exact W|exact Fy|exact Vy|exact Py|exact Key| |exact St2]; exact I.
    + eapply step_sup; [exact Fy|exact Sy| |exact St2]; exact I.
    + intros d. rewrite (consume_clients y (LReattach c) x' I St2). apply Ky.
Qed.

Lemma drains_ok kcl N n x y : drains cfg n x y -> good_state kcl N x -> good_state kcl N y /\ n + M kcl N y <= M kcl N x.
Proof.
  induction 1 as [x|n x y z D R IH]; intros Gs; [split; [exact Gs|lia]|].
  destruct (drain1_ok kcl N x y Gs D) as [Gy L]. destruct (IH Gy) as [Gz L']. split; [exact Gz|lia].
Qed.

Lemma next_prompt x p o todo : (forall q o' cur t, q <> p -> p_phase (pubs x q) = Draining o' cur t ->
    pubof cur = q /\ (c_up (chs x cur) = true -> unanswered (chs x cur) (p_nxt (pubs x q)))) ->
  (forall c, In c todo -> pubof c = p) -> prompt (next_channel cfg x p o todo).
Proof.
  intros Pr Hc q o' cur t Ph Up. rewrite (proj2 (proj2 (next_facts x p o todo cur))) in Up.
  destruct todo as [|c t0]; cbn [next_channel] in *.
  - unfold finish in *. cbn in *. unfold upd in *. destruct (Nat.eqb_spec q p) as [->|N]; [discriminate|]. now apply (Pr q o' cur t).
  - cbn in *. unfold upd in *. destruct (Nat.eqb_spec q p) as [->|Nq].
    + cbn in Ph. injection Ph as <- <- <-. rewrite Nat.eqb_refl. left. cbn. rewrite map_app. apply in_or_app. right. left.
      unfold frame_for. destruct (is_shm c); reflexivity.
    + destruct (Pr q o' cur t Nq Ph) as [E1 E2]. destruct (Nat.eqb_spec cur c) as [->|Nc]; [|auto].
      exfalso. apply Nq. rewrite <- E1. apply Hc. now left.
Qed.

(** When no consumption step is left, nothing is in use. *)
Lemma stuck_free x : FInv x -> LV cfg x -> prompt x -> calm x -> (forall y, ~ drain1 cfg x y) ->
  (forall p, busy (p_phase (pubs x p)) = 0) /\ (forall s, s_queue (sbs x s) = [] /\ s_reading (sbs x s) = []) /\
  (forall p u b, ~ held_in (p_bp (pubs x p)) u b).
Proof.
  intros F V Pr Ca St. pose proof F as [[[A B] SI] G].
  assert (Dr : forall q o cur t, p_phase (pubs x q) = Draining o cur t -> forall c, In c (cur :: t) -> pubof c = q).
  { intros q o cur t E c H. pose proof (g_drain _ _ _ _ (G q)) as D. rewrite E in D. destruct D as (_ & D & _).
    apply (g_chans _ _ _ _ (g_pc _ _ _ _ (G q)) c), D, H. }
  assert (Ph : forall p, busy (p_phase (pubs x p)) = 0).
  { intros p. destruct (p_phase (pubs x p)) as [| | |o|o cur todo] eqn:E; try reflexivity; exfalso.
    - eapply (St _). eapply (drain_step cfg x (LGrown p)); [exact I|cbn; rewrite E; reflexivity|..].
      + intros d. unfold grown. cbn zeta. rewrite (proj1 (proj2 (next_facts _ _ _ _ _))). apply Ca.
      + unfold grown. cbn zeta. apply next_prompt.
        * intros q o' cur t Nq. cbn. rewrite !upd_other by auto. intros Eq. split; [apply (Dr q o' cur t Eq); now left|apply (Pr q o' cur t Eq)].
        * intros c H. apply in_non_local in H. apply (g_chans _ _ _ _ (g_pc _ _ _ _ (G p)) c). apply H.
    - eapply (St _). eapply (drain_step cfg x (LDrained p)); [exact I|cbn; rewrite E; reflexivity|..].
      + intros d. rewrite (proj1 (proj2 (next_facts _ _ _ _ _))). apply Ca.
      + apply next_prompt.
        * intros q o' c' t Nq. cbn. rewrite !upd_other by auto. intros Eq. split; [apply (Dr q o' c' t Eq); now left|apply (Pr q o' c' t Eq)].
        * intros c H. apply (Dr p o cur todo E). now right. }
  assert (Prm : forall y, (forall p, p_phase (pubs y p) = p_phase (pubs x p)) -> prompt y).
  { intros y E p o cur todo H. specialize (Ph p). rewrite E in H. rewrite H in Ph. discriminate. }
  assert (Rd : forall s, s_reading (sbs x s) = []).
  { intros s. destruct (s_reading (sbs x s)) as [|r l] eqn:E; [reflexivity|]. exfalso.
    assert (Q : step x (LRelease s 0) <> None) by (cbn; rewrite E; discriminate).
    destruct (step x (LRelease s 0)) as [y|] eqn:Sy; [|congruence]. eapply (St y), (drain_step cfg x (LRelease s 0)); [exact I|exact Sy|..].
    - cbn in Sy. rewrite E in Sy. cbn in Sy. injection Sy as <-. intros d. rewrite (q_re _ _ (same_release _ _ _ _)). apply Ca.
    - apply Prm. eapply passive_phase; [|exact Sy]. exact I. }
  assert (Qu : forall s, s_queue (sbs x s) = []).
  { intros s. destruct (s_queue (sbs x s)) as [|[p m] l] eqn:E; [reflexivity|]. exfalso.
    destruct (head_registered cfg _ _ _ _ _ _ SI E) as [c Hc].
    assert (Q : exists y, step x (LGet s) = Some y /\ forall d, c_re (chs y d) = c_re (chs x d)).
    { cbn. rewrite E. cbn. rewrite Hc. destruct (cache_get (c_cache (chs x c)) m); eexists; split; try reflexivity.
      intros d. now rewrite (q_re _ _ (same_release _ _ _ _)). }
    destruct Q as (y & Sy & Ry). eapply (St y), (drain_step cfg x (LGet s)); [exact I|exact Sy|..].
    - intros d. rewrite Ry. apply Ca.
    - apply Prm. eapply passive_phase; [|exact Sy]. exact I. }
  assert (Np : forall s c m, ~ pend x s c m).
  { intros s c m [_ [H|(r & H & _)]]; [rewrite Qu in H|rewrite Rd in H]; destruct H. }
  assert (Wr : forall c, c_up (chs x c) = true -> c_wire (chs x c) = []).
  { intros c Up. destruct (c_wire (chs x c)) as [|f w] eqn:E; [reflexivity|]. exfalso.
    assert (Q : exists y, step x (LChanRecv c) = Some y).
    { cbn. rewrite Up, (Ca c), E. destruct f as [m g|m o]; [destruct (c_gen (chs x c) =? g)|]; eauto. }
    destruct Q as [y Sy]. pose proof (passive_phase x (LChanRecv c) y I Sy) as Py.
    assert (Oth : forall d, d <> c -> c_re (chs y d) = None).
    { intros d N. cbn in Sy. rewrite Up, (Ca c), E in Sy. destruct f as [m g|m o].
      - destruct (c_gen (chs x c) =? g); injection Sy as <-.
        + apply (proj1 (proj2 (take_facts _ _ _ _ _))). cbn. rewrite upd_other by auto. apply Ca.
        + cbn. rewrite upd_other by auto. apply Ca.
      - injection Sy as <-. rewrite (q_re _ _ (same_receive _ _ _)). cbn. rewrite upd_other by auto. apply Ca. }
    destruct (c_re (chs y c)) as [[[keys m] g]|] eqn:Re.
    2:{ eapply (St y), (drain_step cfg x (LChanRecv c)); [exact I|exact Sy| |now apply Prm].
        intros d. destruct (Nat.eq_dec d c) as [->|N]; auto. }
    assert (Uy : c_up (chs y c) = true).
    { cbn in Sy. rewrite Up, (Ca c), E in Sy. destruct f as [m' g'|m' o'].
      - destruct (c_gen (chs x c) =? g'); injection Sy as <-.
        + exfalso. rewrite (proj1 (proj2 (take_facts _ _ _ _ _))) in Re; [discriminate|]. cbn. rewrite upd_same. exact (Ca c).
        + cbn. now rewrite upd_same.
      - injection Sy as <-. rewrite (q_re _ _ (same_receive _ _ _)) in Re. cbn in Re. rewrite upd_same in Re. cbn in Re. rewrite Ca in Re. discriminate. }
    assert (Q : exists z, step y (LReattach c) = Some z /\ forall d, c_re (chs z d) = None).
    { cbn. rewrite Uy, Re. destruct (reput _ _ _ _ _ _); eexists; split; try reflexivity; intros d.
      - apply (proj1 (proj2 (take_facts _ _ _ _ _))). cbn. unfold upd. destruct (Nat.eqb_spec d c) as [->|]; auto.
      - cbn. unfold upd. destruct (Nat.eqb_spec d c) as [->|]; auto. }
    destruct Q as (z & Sz & Rz). eapply (St z), (drain_switch cfg x c y z); auto.
    apply Prm. intros p. rewrite (passive_phase y (LReattach c) z I Sz). apply Py. }
  assert (Aw : forall c, In c (p_chans (pubs x (pubof c))) -> c_ackw (chs x c) = []).
  { intros c Hin. destruct (c_ackw (chs x c)) as [|m a] eqn:E; [reflexivity|]. exfalso.
    assert (Ex : existsb (Nat.eqb c) (p_chans (pubs x (pubof c))) = true) by (apply existsb_exists; exists c; split; [exact Hin|apply Nat.eqb_refl]).
    destruct (step x (LAck c)) as [y|] eqn:Sy; [|cbn in Sy; rewrite E, Ex in Sy; discriminate].
    eapply (St y), (drain_step cfg x (LAck c)); [exact I|exact Sy|..].
    - cbn in Sy. rewrite E, Ex in Sy. injection Sy as <-. intros d. cbn. unfold upd. destruct (Nat.eqb_spec d c) as [->|]; apply Ca.
    - apply Prm. eapply passive_phase; [|exact Sy]. exact I. }
  split; [exact Ph|]. split; [auto|].
  intros p u b Hh. pose proof (v_in _ _ V p u b Hh) as Hin. destruct (g_chans _ _ _ _ (g_pc _ _ _ _ (G p)) u Hin) as [Ep _]. subst p.
  destruct (c_up (chs x u)) eqn:Up.
  - destruct (v_owed _ _ V u b Up Hh) as (m & Om & _). destruct Om as [H|[H|[[[h H]|H]|H]]].
    + rewrite Wr in H by auto. destruct H.
    + unfold rem in H. rewrite Ca in H. destruct H.
    + destruct (v_has _ _ V u m h Up H) as [t Ht]. destruct (B u) as [_ _ _ U]. specialize (U Up).
      apply (u_lease _ _ _ _ _ _ _ _ _ U) in Ht. destruct Ht as (j & [Hp|[]] & _). exact (Np _ _ _ Hp).
    + unfold rekeys in H. rewrite Ca in H. destruct H.
    + rewrite Aw in H by auto. destruct H.
  - assert (Ex : existsb (Nat.eqb u) (p_chans (pubs x (pubof u))) = true) by (apply existsb_exists; exists u; split; [exact Hin|apply Nat.eqb_refl]).
    destruct (step x (LPubDown u)) as [y|] eqn:Sy.
    + eapply (St y), (drain_step cfg x (LPubDown u)); [exact I|exact Sy|..].
      * cbn in Sy. rewrite Up, Ex in Sy. destruct (p_phase (pubs x (pubof u))); try discriminate; injection Sy as <-; exact Ca.
      * apply Prm. eapply passive_phase; [|exact Sy]. exact I.
    + cbn in Sy. rewrite Up, Ex in Sy. specialize (Ph (pubof u)). destruct (p_phase (pubs x (pubof u))); discriminate.
Qed.

Theorem drains_to_free x : reachw cfg x -> calm x ->
  exists bound, forall n y, drains cfg n x y -> n <= bound /\
    ((forall z, ~ drain1 cfg y z) -> (forall s, s_queue (sbs y s) = [] /\ s_reading (sbs y s) = []) /\
                                     (forall p u b, ~ leased (p_bp (pubs y p)) u b) /\ forall p, busy (p_phase (pubs y p)) = 0).
Proof.
  intros R Ca. destruct (reachw_live cfg W x R) as (F & V & Pr & _). destruct (reach_sup x (reachw_reach cfg x R)) as [N S].
  set (kcl := fun c => length (c_clients (chs x c))). exists (M kcl N x). intros n y D.
  destruct (drains_ok kcl N n x y D) as [Gy L]; [constructor; auto|]. split; [lia|]. intros St.
  destruct (stuck_free y (gs_inv _ _ _ Gy) (gs_live _ _ _ Gy) (gs_prompt _ _ _ Gy) (gs_calm _ _ _ Gy) St) as (A & B & C). auto.
Qed.
End Drain.
