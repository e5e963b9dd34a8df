(* Proofs about LocateModel: what one step can do, the invariant of reachable machines. *)

From Coq Require Import String List Arith NArith Bool Lia.
From Verif Require Import Dict LocateModel LocateSpec.
Import ListNotations.
Open Scope N_scope.

Section Proofs.
Variable resolve : string -> string.
Variable refuses : addr -> bool.

Notation step := (step resolve refuses).
Notation run := (run resolve refuses).
Notation bindable := (bindable refuses).
Notation place := (place resolve).

(** ** One step *)

(** A change of phase that touches no socket. *)
Inductive pmove (w : world) (i : nat) (c : call) : event -> phase -> phase -> Prop :=
| p_yes : forall port n, listener (socks w) (place (target c) 0) = Some n -> pmove w i c (Go i port) Connecting (Greeting n)
| p_no : forall port, listener (socks w) (place (target c) 0) = None -> pmove w i c (Go i port) Connecting (no_answer c)
| p_greet : forall port n s, get n (socks w) = Some s -> s_kind s = Graph -> s_listens s = true ->
    pmove w i c (Go i port) (Greeting n) (Done Found)
| p_unav : forall port a, bindable (socks w) (place a port) true = false -> pmove w i c (Go i port) (Binding a) (Done Unavailable)
| p_none : forall port h p, MAX_PORT < p -> pmove w i c (Go i port) (Searching h p) (Done NoFreePorts)
| p_skip : forall port h p, p <= MAX_PORT -> p = 25978 -> pmove w i c (Go i port) (Searching h p) (Searching h (p + 1))
| p_taken : forall port h p, p <= MAX_PORT -> p <> 25978 -> bindable (socks w) (place (h, p) port) false = false ->
    pmove w i c (Go i port) (Searching h p) (Searching h (p + 1))
| p_stuck : forall port n s m, get n (socks w) = Some s -> listener (socks w) (s_addr s) = Some m -> kind_of c = Graph ->
    pmove w i c (Go i port) (Starting n) (Stuck n)
| p_hang : forall reset n, alive w n = false -> pmove w i c (HangUp i reset) (Greeting n) (hung_up c reset).

Inductive asks (c : call) (port : N) : phase -> addr -> bool -> Prop :=
| a_bind : forall a, asks c port (Binding a) (place a port) true
| a_search : forall h p, p <= MAX_PORT -> p <> 25978 -> asks c port (Searching h p) (place (h, p) port) false.

Inductive move (w : world) : event -> world -> Prop :=
| m_call : forall i c, get i (agents w) = None -> move w (Call i c) (set_phase w i c (first_phase c))
| m_fork : forall i j a, get i (agents w) = Some (mkAgent (StartCommand a) Forking) -> get j (agents w) = None ->
    move w (Fork i j) (set_phase (set_phase w i (StartCommand a) Connecting) j
                         (Create (Some a) (mkEnv None 0 0)) (Binding a))
| m_phase : forall e i c ph ph', get i (agents w) = Some (mkAgent c ph) -> pmove w i c e ph ph' ->
    move w e (set_phase w i c ph')
| m_bind : forall i port c ph a reuse, get i (agents w) = Some (mkAgent c ph) -> asks c port ph a reuse ->
    bindable (socks w) a reuse = true ->
    move w (Go i port) (mkWorld (socks w ++ [(next w, mkSock a reuse false (kind_of c) (Some i))])
                          (put i (mkAgent c (Starting (next w))) (agents w)) (S (next w)))
| m_listen : forall i port c n s, get i (agents w) = Some (mkAgent c (Starting n)) -> get n (socks w) = Some s ->
    listener (socks w) (s_addr s) = None ->
    move w (Go i port) (mkWorld (put n (mkSock (s_addr s) (s_reuse s) true (s_kind s) (s_owner s)) (socks w))
                          (put i (mkAgent c (Done (Started (s_addr s)))) (agents w)) (next w))
| m_drop : forall i port c n s m, get i (agents w) = Some (mkAgent c (Starting n)) -> get n (socks w) = Some s ->
    listener (socks w) (s_addr s) = Some m -> kind_of c = Channel ->
    move w (Go i port) (mkWorld (del n (socks w)) (put i (mkAgent c (Done Unavailable)) (agents w)) (next w))
| m_stop : forall i n c ph, get i (agents w) = Some (mkAgent c ph) -> move w (Stop i n) (stop w i n)
| m_other : forall a reuse listens, bindable (socks w) a reuse = true ->
    move w (Other a reuse listens) (mkWorld (socks w ++ [(next w, mkSock a reuse listens Foreign None)]) (agents w) (S (next w)))
| m_close : forall n s, get n (socks w) = Some s -> s_owner s = None ->
    move w (Close n) (mkWorld (del n (socks w)) (agents w) (next w)).

Lemma reserved p : mem p RESERVED_PORTS = true <-> p = 25978.
Proof. rewrite mem_In. cbn. unfold GRAPHSERVER_PORT_DEFAULT. intuition congruence. Qed.

Lemma step_move w e : step w e = w \/ move w e (step w e).
Proof.
  destruct e as [i c|i j|i port|i reset|i n|a reuse listens|n]; cbn [LocateModel.step].
  - destruct (get i (agents w)) eqn:E; [left; reflexivity|right; now apply m_call].
  - destruct (get i (agents w)) as [[[| |a|] [| | | | | | | |]]|] eqn:E; try (left; reflexivity).
    destruct (get j (agents w)) eqn:E2; [left; reflexivity|]. right. now apply m_fork.
  - destruct (get i (agents w)) as [[c ph]|] eqn:E; [|left; reflexivity]. cbn [a_call a_phase].
    destruct ph as [| |n|a|h p|n|n|o|]; cbn [go]; try (left; reflexivity).
    + right. destruct (listener (socks w) (place (target c) 0)) eqn:L.
      * eapply m_phase; [exact E|]. now constructor.
      * eapply m_phase; [exact E|]. now constructor.
    + destruct (get n (socks w)) as [s|] eqn:G; [|left; reflexivity].
      destruct (s_kind s) eqn:K; try (left; reflexivity).
      destruct (s_listens s) eqn:L; [|left; reflexivity]. right.
      eapply m_phase; [exact E|]. econstructor; eauto.
    + right. unfold bind. destruct (bindable (socks w) (place a port) true) eqn:B.
      * eapply m_bind; [exact E|constructor|assumption].
      * eapply m_phase; [exact E|]. now constructor.
    + right. destruct (MAX_PORT <? p) eqn:M.
      { eapply m_phase; [exact E|]. constructor. now apply N.ltb_lt. }
      apply N.ltb_ge in M. destruct (mem p RESERVED_PORTS) eqn:R.
      { eapply m_phase; [exact E|]. constructor; [assumption|]. now apply reserved. }
      assert (R' : p <> 25978) by (intros P; apply reserved in P; congruence).
      unfold bind. destruct (bindable (socks w) (place (h, p) port) false) eqn:B.
      * eapply m_bind; [exact E|now constructor|assumption].
      * eapply m_phase; [exact E|]. now constructor.
    + unfold listen. destruct (get n (socks w)) as [s|] eqn:G; [|left; reflexivity]. right.
      destruct (listener (socks w) (s_addr s)) eqn:L.
      * destruct (kind_of c) eqn:K.
        -- eapply m_phase; [exact E|]. econstructor; eauto.
        -- eapply m_drop; eauto.
        -- destruct c; discriminate.
      * now eapply m_listen; eauto.
  - destruct (get i (agents w)) as [[c [| |n| | | | | |]]|] eqn:E; try (left; reflexivity).
    destruct (alive w n) eqn:A; [left; reflexivity|]. right. eapply m_phase; [exact E|]. now constructor.
  - destruct (get i (agents w)) as [[c ph]|] eqn:E.
    + right. eapply m_stop; eauto.
    + left. unfold stop. now rewrite E.
  - destruct (bindable (socks w) a reuse) eqn:B; [right; now constructor|left; reflexivity].
  - destruct (get n (socks w)) as [s|] eqn:G; [|left; reflexivity].
    destruct (s_owner s) eqn:O; [left; reflexivity|]. right. econstructor; eauto.
Qed.

Lemma run_app w l l' : run w (l ++ l') = run (run w l) l'.
Proof. unfold LocateModel.run. now rewrite fold_left_app. Qed.

Lemma run_one w l e : run w (l ++ [e]) = step (run w l) e.
Proof. now rewrite run_app. Qed.

(** ** Sockets *)

Lemma listener_Some l a n : listener l a = Some n -> exists s, In (n, s) l /\ s_addr s = a /\ s_listens s = true.
Proof.
  unfold listener. destruct (find _ l) as [[m s]|] eqn:F; [|discriminate]. intros E. injection E as <-.
  apply find_some in F. destruct F as [I F]. unfold listening_at in F. cbn [snd] in F. apply andb_true_iff in F.
  exists s. split; [exact I|]. split; [now apply eqd_true|tauto].
Qed.

Lemma listener_None l a : listener l a = None <-> forall n s, In (n, s) l -> s_addr s = a -> s_listens s = false.
Proof.
  unfold listener. destruct (find _ l) as [[m t]|] eqn:F; split; intros H; try discriminate; try reflexivity.
  - apply find_some in F. destruct F as [I F]. unfold listening_at in F. cbn [snd] in F. apply andb_true_iff in F.
    destruct F as [F1 F2]. apply (proj1 (eqd_true _ _)) in F2. specialize (H m t I F2). congruence.
  - intros n s I E. pose proof (find_none _ _ F _ I) as N. unfold listening_at in N. cbn [snd] in N.
    subst a. rewrite eqd_refl, andb_true_r in N. exact N.
Qed.

Lemma bindable_true l a reuse : bindable l a reuse = true <->
  refuses a = false /\ 0 < snd a <= 65535 /\
  forall n s, In (n, s) l -> s_addr s = a -> reuse = true /\ s_reuse s = true /\ s_listens s = false.
Proof.
  unfold LocateModel.bindable. rewrite !andb_true_iff, !negb_true_iff, N.eqb_neq, N.leb_le, forallb_forall.
  unfold MAX_PORT. split.
  - intros [[[R Z] M] F]. split; [exact R|]. split; [lia|]. intros n s I E. specialize (F (n, s) I).
    cbn [snd] in F. unfold in_the_way in F. rewrite E, eqd_refl in F. cbn in F.
    destruct reuse, (s_reuse s), (s_listens s); cbn in F; auto; discriminate.
  - intros [R [M F]]. split; [split; [split; [exact R|lia]|lia]|]. intros [n s] I. cbn [snd]. unfold in_the_way.
    destruct (eqd (s_addr s) a) eqn:E; [|reflexivity]. apply (proj1 (eqd_true _ _)) in E. destruct (F n s I E) as [-> [-> ->]].
    reflexivity.
Qed.

Lemma not_bindable_strict w a : bindable (socks w) a false = false -> 0 < snd a <= 65535 -> taken refuses w a.
Proof.
  intros B P. unfold taken. destruct (refuses a) eqn:R; [now left|right].
  assert (D : (exists p, In p (socks w) /\ eqd (s_addr (snd p)) a = true) \/ ~ (exists p, In p (socks w) /\ eqd (s_addr (snd p)) a = true)).
  { destruct (existsb (fun p => eqd (s_addr (snd p)) a) (socks w)) eqn:X.
    - left. apply existsb_exists in X. exact X.
    - right. intros [p [I E]]. assert (existsb (fun p => eqd (s_addr (snd p)) a) (socks w) = true).
      { apply existsb_exists. eauto. } congruence. }
  destruct D as [[[n s] [I E]]|D].
  - exists n, s. split; [exact I|]. now apply eqd_true.
  - exfalso. assert (T : bindable (socks w) a false = true); [|congruence].
    apply bindable_true. split; [exact R|]. split; [exact P|]. intros n s I E. exfalso. apply D.
    exists (n, s). split; [exact I|]. now apply eqd_true.
Qed.

(** ** The invariant *)

(** What the socket of a call looks like while the call is in a phase. *)
Definition fits (i : nat) (c : call) (ph : phase) (n : nat) (s : sock) : Prop :=
  s_kind s = kind_of c /\
  ((ph = Starting n /\ s_listens s = false) \/
   (ph = Stuck n /\ s_listens s = false) \/
   (ph = Done (Started (s_addr s)) /\ s_listens s = true)).

Record inv (w : world) : Prop := {
  i_keys : NoDup (keys (socks w));
  i_next : forall n, In n (keys (socks w)) -> (n < next w)%nat;
  i_one : forall n s m t, In (n, s) (socks w) -> In (m, t) (socks w) ->
    s_listens s = true -> s_listens t = true -> s_addr s = s_addr t -> n = m;
  i_owner : forall n s i, In (n, s) (socks w) -> s_owner s = Some i ->
    exists c ph, get i (agents w) = Some (mkAgent c ph) /\ fits i c ph n s;
  i_foreign : forall n s, In (n, s) (socks w) -> s_owner s = None -> s_kind s = Foreign;
  i_has : forall i c n, (get i (agents w) = Some (mkAgent c (Starting n)) \/ get i (agents w) = Some (mkAgent c (Stuck n))) ->
    exists s, In (n, s) (socks w) /\ s_owner s = Some i
}.

Lemma inv_init : inv init.
Proof. constructor; cbn; try constructor; try tauto. intros i c n [H|H]; discriminate. Qed.

Lemma keys_app {A} (l l' : list (nat * A)) : keys (l ++ l') = keys l ++ keys l'.
Proof. apply map_app. Qed.

Lemma In_keys {A} n (s : A) (l : list (nat * A)) : In (n, s) l -> In n (keys l).
Proof. intros I. apply in_map_iff. exists (n, s). auto. Qed.

(** The call has no socket unless it is in one of these phases. *)
Definition holds (ph : phase) : bool :=
  match ph with Starting _ | Stuck _ | Done (Started _) => true | _ => false end.

Lemma fits_holds i c ph n s : fits i c ph n s -> holds ph = true.
Proof. intros [_ [[-> _]|[[-> _]|[-> _]]]]; reflexivity. Qed.

Lemma no_answer_holds c : holds (no_answer c) = false.
Proof.
  destruct c as [a auto env| | |]; cbn; try reflexivity. destruct (ensure_server a auto env); [|reflexivity].
  destruct a; reflexivity.
Qed.
Lemma hung_up_holds c reset : holds (hung_up c reset) = false.
Proof.
  unfold hung_up. destruct c as [a auto env| | |]; try reflexivity. destruct reset; [|reflexivity]. apply no_answer_holds.
Qed.
Lemma first_phase_holds c : holds (first_phase c) = false.
Proof. destruct c as [a auto env|a env| |h p env]; cbn; try reflexivity; [destruct a; reflexivity|]. unfold begin_publish. destruct p; reflexivity. Qed.

(** Changing the phase of a call without sockets keeps the invariant. *)
Lemma inv_quiet w i c ph : inv w ->
  (forall c' ph', get i (agents w) = Some (mkAgent c' ph') -> holds ph' = false) -> holds ph = false ->
  inv (set_phase w i c ph).
Proof.
  intros I Q H. destruct I as [K N O W F Hs]. constructor; cbn [set_phase socks agents next]; auto.
  - intros n s j In1 Ow. destruct (W n s j In1 Ow) as [c' [ph' [G Ft]]].
    rewrite get_put. destruct (dec j i) as [->|NE].
    + specialize (Q c' ph' G). apply fits_holds in Ft. congruence.
    + eauto.
  - intros j c' n. rewrite get_put. destruct (dec j i) as [->|NE].
    + intros [E|E]; injection E as _ ->; discriminate.
    + apply Hs.
Qed.

Lemma number_spec n l : forall m s, In (m, s) (number n l) -> (n <= m < n + length l)%nat /\ In s l.
Proof.
  revert n. induction l as [|a l IH]; cbn; [tauto|]. intros n m s [E|I].
  - injection E as <- <-. split; [lia|now left].
  - destruct (IH (S n) m s I). split; [lia|now right].
Qed.

Lemma keys_number n l : keys (number n l) = seq n (length l).
Proof. revert n. induction l as [|a l IH]; cbn; [reflexivity|]. intros n. f_equal. apply IH. Qed.

Lemma NoDup_keys_filter {A} f (l : list (nat * A)) : NoDup (keys l) -> NoDup (keys (filter f l)).
Proof.
  unfold keys. induction l as [|[k v] l IH]; cbn; [auto|]. intros ND. inversion ND; subst.
  destruct (f (k, v)); cbn; [|auto]. constructor; [|auto]. intros I. apply H1.
  apply in_map_iff in I. destruct I as [[k' v'] [E I]]. apply filter_In in I. destruct I as [I _].
  cbn in E. subst k'. now apply in_map with (f := fst) in I.
Qed.

Lemma NoDup_append {A} (l l' : list A) : NoDup l -> NoDup l' -> (forall x, In x l -> ~ In x l') -> NoDup (l ++ l').
Proof.
  induction 1 as [|a l N ND IH]; cbn; [auto|]. intros N' D. constructor.
  - rewrite in_app_iff. intros [I|I]; [auto|]. now apply (D a); [left|].
  - apply IH; auto.
Qed.

(** The sockets after a stop: those of others, and leftovers. *)
Lemma stop_socks w i k n s c ph : get i (agents w) = Some (mkAgent c ph) ->
  In (n, s) (socks (stop w i k)) ->
  (In (n, s) (socks w) /\ owned i s = false) \/
  ((next w <= n)%nat /\ s_owner s = None /\ s_kind s = Foreign /\ s_listens s = false /\
   exists m t, In (m, t) (socks w) /\ s_owner t = Some i /\ s_addr s = s_addr t /\ s_reuse s = s_reuse t).
Proof.
  intros G. unfold stop. rewrite G. cbn [socks]. rewrite in_app_iff, filter_In. cbn [snd].
  intros [[I O]|I]; [left; split; [exact I|now apply negb_true_iff]|right].
  apply number_spec in I. destruct I as [[L _] I]. apply in_flat_map in I. destruct I as [[m t] [Im It]].
  apply filter_In in Im. cbn [snd] in *. destruct Im as [Im Ow]. destruct (s_listens t); [|contradiction].
  apply repeat_spec in It. subst s. split; [exact L|]. unfold leftover. cbn. repeat split.
  exists m, t. split; [exact Im|]. unfold owned in Ow. destruct (s_owner t) as [j|]; [|discriminate].
  apply Nat.eqb_eq in Ow. now subst.
Qed.

Lemma owned_iff i s : owned i s = true <-> s_owner s = Some i.
Proof.
  unfold owned. destruct (s_owner s); [|split; discriminate]. rewrite Nat.eqb_eq. split; [now intros ->|now intros [= ->]].
Qed.

Lemma pmove_quiet w i c e ph ph' : pmove w i c e ph ph' ->
  (holds ph = false /\ holds ph' = false) \/ (exists n, ph = Starting n /\ ph' = Stuck n).
Proof.
  destruct 1; try (left; split; reflexivity).
  - left. split; [reflexivity|apply no_answer_holds].
  - right. eauto.
  - left. split; [reflexivity|apply hung_up_holds].
Qed.

Lemma asks_holds c port ph a reuse : asks c port ph a reuse -> holds ph = false.
Proof. destruct 1; reflexivity. Qed.

Lemma inv_step w e : inv w -> inv (step w e).
Proof.
  intros I. destruct (step_move w e) as [->|M]; [exact I|]. remember (step w e) as w' eqn:X. clear X.
  pose proof I as I0. destruct I as [K N O W F Hs].
  destruct M as [i c G|i j a G Gj|e i c ph ph' G P|i port c ph a reuse G A B|i port c n s G Gn L|i port c n s m G Gn L Kc
                 |i n c ph G|a reuse listens B|n s Gn Ow].
  - apply inv_quiet; [exact I0| |apply first_phase_holds]. intros c' ph' E. congruence.
  - apply inv_quiet; [| |reflexivity].
    + apply inv_quiet; [exact I0| |reflexivity]. intros c' ph' E. rewrite G in E. now injection E as <- <-.
    + cbn. intros c' ph'. rewrite get_put_neq; [congruence|]. intros ->. congruence.
  - apply pmove_quiet in P. destruct P as [[H1 H2]|[n [-> ->]]].
    + apply inv_quiet; auto. intros c' ph2 E. rewrite G in E. now injection E as <- <-.
    + constructor; cbn [set_phase socks agents next]; auto.
      * intros m t j It Ot. destruct (W m t j It Ot) as [c' [ph' [Gj Ft]]]. rewrite get_put.
        destruct (dec j i) as [->|NE]; [|eauto]. rewrite G in Gj. injection Gj as <- <-.
        exists c, (Stuck n). split; [reflexivity|]. destruct Ft as [Kt [[E Li]|[[E _]|[E _]]]]; try discriminate.
        injection E as ->. split; [exact Kt|]. right. left. auto.
      * intros j c' m. rewrite get_put. destruct (dec j i) as [->|NE]; [|apply Hs].
        intros [E|E]; [discriminate|]. injection E as <- <-. apply (Hs i c). now left.
  - pose proof (asks_holds _ _ _ _ _ A) as Q. constructor; cbn [socks agents next].
    + rewrite keys_app. apply NoDup_append; [exact K|repeat constructor; tauto|].
      intros x Ix [<-|[]]. apply N in Ix. cbn in Ix. lia.
    + intros n. rewrite keys_app, in_app_iff. cbn. intros [In1|[<-|[]]]; [apply N in In1; lia|lia].
    + intros n s m t In1 Im Ls Lt E. apply in_app_iff in In1, Im. cbn in In1, Im.
      destruct In1 as [In1|[In1|[]]]; [|injection In1 as <- <-; discriminate].
      destruct Im as [Im|[Im|[]]]; [|injection Im as <- <-; discriminate]. eauto.
    + intros n s j In1 Ow. apply in_app_iff in In1. destruct In1 as [In1|[In1|[]]].
      * destruct (W n s j In1 Ow) as [c' [ph' [Gj Ft]]]. rewrite get_put. destruct (dec j i) as [->|NE]; [|eauto].
        rewrite G in Gj. injection Gj as <- <-. apply fits_holds in Ft. congruence.
      * injection In1 as <- <-. cbn in Ow. injection Ow as <-. exists c, (Starting (next w)).
        rewrite get_put_eq. split; [reflexivity|]. split; [reflexivity|]. left. auto.
    + intros n s In1 Ow. apply in_app_iff in In1. destruct In1 as [In1|[In1|[]]]; [eauto|].
      injection In1 as <- <-. discriminate.
    + intros j c' n. rewrite get_put. destruct (dec j i) as [->|NE].
      * intros [E|E]; [|discriminate]. injection E as <- <-. eexists. split; [apply in_app_iff; right; left; reflexivity|reflexivity].
      * intros H. destruct (Hs j c' n H) as [s [In1 Ow]]. exists s. split; [apply in_app_iff; now left|exact Ow].
  - assert (Own : s_owner s = Some i).
    { destruct (Hs i c n (or_introl G)) as [s' [Is' Ow']]. apply (In_get n s' (socks w) K) in Is'. congruence. }
    pose proof (proj1 (listener_None _ _) L) as NL. apply get_In in Gn.
    constructor; cbn [socks agents next].
    + now apply NoDup_keys_put.
    + intros m Im. apply keys_put in Im. destruct Im as [->|Im]; [|auto]. apply N. now apply In_keys in Gn.
    + intros p u m t Ip Im Lu Lt E. apply In_put in Ip, Im; try exact K.
      destruct Ip as [[-> ->]|[NEp Ip]], Im as [[-> ->]|[NEm Im]]; cbn [s_addr] in E; try reflexivity.
      * rewrite (NL m t Im (eq_sym E)) in Lt. discriminate.
      * rewrite (NL p u Ip E) in Lu. discriminate.
      * eauto.
    + intros p u j Ip Ow. apply In_put in Ip; [|exact K]. destruct Ip as [[-> ->]|[NE Ip]].
      * cbn in Ow. rewrite Ow in Own. injection Own as ->. rewrite get_put_eq. exists c. eexists. split; [reflexivity|].
        destruct (W n s i Gn Ow) as [c' [ph' [Gi Ft]]]. rewrite G in Gi. injection Gi as <- <-.
        split; [apply Ft|]. right. right. auto.
      * destruct (W p u j Ip Ow) as [c' [ph' [Gj Ft]]]. rewrite get_put. destruct (dec j i) as [->|NEj]; [|eauto].
        rewrite G in Gj. injection Gj as <- <-. destruct Ft as [_ [[E _]|[[E _]|[E _]]]]; try discriminate.
        injection E as E. congruence.
    + intros p u Ip Ow. apply In_put in Ip; [|exact K]. destruct Ip as [[-> ->]|[NE Ip]]; [|eauto].
      cbn in Ow. congruence.
    + intros j c' m. rewrite get_put. destruct (dec j i) as [->|NE]; [intros [E|E]; discriminate|].
      intros H. destruct (Hs j c' m H) as [u [Iu Ou]]. exists u. split; [|exact Ou]. apply In_put; [exact K|]. right.
      split; [|exact Iu]. intros ->. apply (In_get n u _ K) in Iu. apply (In_get n s _ K) in Gn. congruence.
  - assert (Own : s_owner s = Some i).
    { destruct (Hs i c n (or_introl G)) as [s' [Is' Ow']]. apply (In_get n s' (socks w) K) in Is'. congruence. }
    apply get_In in Gn. constructor; cbn [socks agents next].
    + now apply NoDup_keys_del.
    + intros p Ip. apply keys_del in Ip. apply N. tauto.
    + intros p u q t Ip Iq. apply In_del in Ip, Iq. destruct Ip, Iq. eauto.
    + intros p u j Ip Ow. apply In_del in Ip. destruct Ip as [NE Ip]. destruct (W p u j Ip Ow) as [c' [ph' [Gj Ft]]].
      rewrite get_put. destruct (dec j i) as [->|NEj]; [|eauto]. rewrite G in Gj. injection Gj as <- <-.
      destruct Ft as [_ [[E _]|[[E _]|[E _]]]]; try discriminate. injection E as E. congruence.
    + intros p u Ip. apply In_del in Ip. destruct Ip. eauto.
    + intros j c' p. rewrite get_put. destruct (dec j i) as [->|NE]; [intros [E|E]; discriminate|].
      intros H. destruct (Hs j c' p H) as [u [Iu Ou]]. exists u. split; [|exact Ou]. apply In_del.
      split; [|exact Iu]. intros ->. apply (In_get n u _ K) in Iu. apply (In_get n s _ K) in Gn. congruence.
  - pose proof (stop_socks w i n) as SS. constructor.
    + unfold stop. rewrite G. cbn [socks]. rewrite keys_app, keys_number. apply NoDup_append.
      * now apply NoDup_keys_filter.
      * apply seq_NoDup.
      * intros x Ix Iy. apply in_map_iff in Ix. destruct Ix as [[x' s] [E Ix]]. cbn in E. subst x'.
        apply filter_In in Ix. destruct Ix as [Ix _]. apply In_keys in Ix. apply N in Ix. apply in_seq in Iy. lia.
    + intros x. unfold stop. rewrite G. cbn [socks next]. rewrite keys_app, keys_number, in_app_iff, in_seq.
      intros [Ix|Ix]; [|lia]. apply in_map_iff in Ix. destruct Ix as [[x' s] [E Ix]]. cbn in E. subst x'.
      apply filter_In in Ix. destruct Ix as [Ix _]. apply In_keys in Ix. apply N in Ix. lia.
    + intros p u q t Ip Iq Lu Lt E. apply (SS _ _ _ _ G) in Ip, Iq.
      destruct Ip as [[Ip _]|[_ [_ [_ [C _]]]]]; [|congruence]. destruct Iq as [[Iq _]|[_ [_ [_ [C _]]]]]; [|congruence]. eauto.
    + intros p u j Ip Ow. apply (SS _ _ _ _ G) in Ip. destruct Ip as [[Ip O1]|[_ [C _]]]; [|congruence].
      destruct (W p u j Ip Ow) as [c' [ph' [Gj Ft]]]. unfold stop. rewrite G. cbn [agents]. rewrite get_put.
      destruct (dec j i) as [->|NE]; [|eauto]. apply owned_iff in Ow. congruence.
    + intros p u Ip Ow. apply (SS _ _ _ _ G) in Ip. destruct Ip as [[Ip O1]|[_ [_ [C _]]]]; [eauto|exact C].
    + intros j c' p. unfold stop. rewrite G. cbn [agents socks a_call a_phase]. rewrite get_put. destruct (dec j i) as [->|NE].
      * intros [E|E]; destruct ph; discriminate.
      * intros H. destruct (Hs j c' p H) as [u [Iu Ou]]. exists u. split; [|exact Ou]. apply in_app_iff. left.
        apply filter_In. split; [exact Iu|]. cbn [snd]. apply negb_true_iff. destruct (owned i u) eqn:X; [|reflexivity].
        apply owned_iff in X. congruence.
  - pose proof (proj1 (bindable_true _ _ _) B) as [_ [_ NL]]. constructor; cbn [socks agents next].
    + rewrite keys_app. apply NoDup_append; [exact K|repeat constructor; tauto|].
      intros x Ix [<-|[]]. apply N in Ix. cbn in Ix. lia.
    + intros n. rewrite keys_app, in_app_iff. cbn. intros [In1|[<-|[]]]; [apply N in In1; lia|lia].
    + intros n s m t In1 Im Ls Lt E. apply in_app_iff in In1, Im. cbn in In1, Im.
      destruct In1 as [In1|[In1|[]]], Im as [Im|[Im|[]]]; try injection In1 as <- <-; try injection Im as <- <-; cbn in E.
      * eauto.
      * destruct (NL n s In1 E) as [_ [_ C]]. congruence.
      * destruct (NL m t Im (eq_sym E)) as [_ [_ C]]. congruence.
      * reflexivity.
    + intros n s j In1 Ow. apply in_app_iff in In1. destruct In1 as [In1|[In1|[]]]; [eauto|]. injection In1 as <- <-. discriminate.
    + intros n s In1 Ow. apply in_app_iff in In1. destruct In1 as [In1|[In1|[]]]; [eauto|]. now injection In1 as <- <-.
    + intros j c' n H. destruct (Hs j c' n H) as [s [In1 Ow]]. exists s. split; [apply in_app_iff; now left|exact Ow].
  - apply get_In in Gn. constructor; cbn [socks agents next].
    + now apply NoDup_keys_del.
    + intros p Ip. apply keys_del in Ip. apply N. tauto.
    + intros p u q t Ip Iq. apply In_del in Ip, Iq. destruct Ip, Iq. eauto.
    + intros p u j Ip. apply In_del in Ip. destruct Ip. eauto.
    + intros p u Ip. apply In_del in Ip. destruct Ip. eauto.
    + intros j c' p H. destruct (Hs j c' p H) as [u [Iu Ou]]. exists u. split; [|exact Ou]. apply In_del.
      split; [|exact Iu]. intros ->. apply (In_get n u _ K) in Iu. apply (In_get n s _ K) in Gn. congruence.
Qed.

Lemma inv_run l : inv (run init l).
Proof. induction l as [|e l IH] using rev_ind; [apply inv_init|]. rewrite run_one. now apply inv_step. Qed.

End Proofs.
