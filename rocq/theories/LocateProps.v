(* C81: the graph server a program ends up with. *)

From Coq Require Import String List Arith NArith Bool Lia.
From Verif Require Import Dict LocateModel LocateSpec LocateProofs LocateTimeProofs LocateAloneProofs.
Import ListNotations.
Open Scope N_scope.

Section Props.
Variable resolve : string -> string.
Variable refuses : addr -> bool.

Notation run := (run resolve refuses).

(** At which moment of a run, while call i is under way, something holds. *)
Definition during (l : list event) (i : nat) (P : world -> Prop) : Prop :=
  exists before after, l = before ++ after /\ pending (run init before) i /\ P (run init before).

Lemma aims_ensure given auto env : aims resolve (Ensure given auto env) = at_ resolve (meant given env).
Proof.
  unfold aims, target, address, default_address, meant, place, at_.
  destruct given as [a|]; [|destruct (env_addr env) as [a|]; [|reflexivity]]; cbn;
    destruct (N.eqb_spec (snd a) 0) as [->|]; reflexivity.
Qed.

(** ensure() returns nothing only if, while it was running, a graph server listened at the address meant; it raises
    ConnectionRefusedError only if it may not start one and at some moment none did; it starts one only if it
    may. *)
Theorem C81_outcomes : forall l i given auto env o,
  called (run init l) i (Ensure given auto env) -> ended (run init l) i o ->
  (o = Found -> during l i (fun w => served w (at_ resolve (meant given env)))) /\
  (o = Refused -> ~ may_start given auto env /\ during l i (fun w => ~ served w (at_ resolve (meant given env)))) /\
  (forall a, o = Started a -> may_start given auto env) /\
  (o = Unavailable -> may_start given auto env /\
     exists a, given = Some a /\ (port_ok (snd a) -> during l i (fun w => ~ free_for_reuse refuses w (at_ resolve a)))) /\
  (o = NoFreePorts -> may_start given auto env /\ given = None).
Proof.
  intros l i given auto env o [ph G] [c E]. rewrite E in G. injection G as -> <-. apply good_run in E.
  rewrite <- (aims_ensure given auto env).
  split; [|split; [|split; [|split]]].
  - intros ->. exact E.
  - intros ->. exact E.
  - intros a ->. apply E.
  - intros ->. destruct E as [Al E]. split; [exact Al|]. destruct (E eq_refl) as [a [D M]].
    destruct given as [b|]; [|destruct D]. cbn in D. subst b. eauto.
  - intros ->. destruct E as [Al [h [st [S _]]]]. split; [exact Al|]. destruct given; [destruct S|reflexivity].
Qed.

(** A server that was started listens at the address it reports, alone, until it is stopped: whoever connects there
    reaches it. *)
Theorem C81_started_listens : forall l i a,
  ended (run init l) i (Started a) -> (forall n, ~ In (Stop i n) l) -> serves (run init l) i a.
Proof.
  intros l i a E NS. destruct (started_listens resolve refuses l i a E NS) as [n [s [I [A [L O]]]]].
  split; [exists n, s; repeat split; assumption|].
  intros m t It At Lt. pose proof (inv_run resolve refuses l) as Iw.
  assert (n = m) by (apply (i_one _ Iw n s m t); congruence). subst m.
  apply (In_get n s _ (i_keys _ Iw)) in I. apply (In_get n t _ (i_keys _ Iw)) in It. congruence.
Qed.

(** Two servers (of graphs or of publishers) that run at the same time have different addresses. *)
Theorem C81_different_addresses : forall l i j a b,
  ended (run init l) i (Started a) -> ended (run init l) j (Started b) -> i <> j ->
  (forall n, ~ In (Stop i n) l) -> (forall n, ~ In (Stop j n) l) -> a <> b.
Proof.
  intros l i j a b Ei Ej NE Ni Nj <-. destruct (C81_started_listens l i a Ei Ni) as [_ U].
  destruct (C81_started_listens l j a Ej Nj) as [[n [s [I [A [L O]]]]] _]. rewrite (U n s I A L) in O. congruence.
Qed.

(** Where a server starts: at the address given, if one is given (any port if that port is 0); otherwise on the
    lowest port, from the configured one on, that was not taken when it was tried, and never at 25978. *)
Theorem C81_where : forall l i c a, called (run init l) i c -> ended (run init l) i (Started a) ->
  (exists b, demands c b /\ fst a = resolve (fst b) /\ (snd b <> 0 -> a = at_ resolve b)) \/
  (exists h start, searches c h start /\
     (0 < start -> exists p, a = (resolve h, p) /\ start <= p <= 65535 /\ p <> 25978 /\
        forall q, start <= q < p -> q <> 25978 -> during l i (fun w => taken refuses w (resolve h, q)))).
Proof.
  intros l i c a [ph G] [c' E]. rewrite E in G. injection G as -> <-. apply good_run in E.
  destruct E as [_ [r [[b [port [D [-> _]]]]|[h [st [S [_ K]]]]]]].
  - left. exists b. split; [exact D|]. split; [reflexivity|]. apply place_at.
  - right. exists h, st. split; [exact S|]. intros P. destruct (K P) as [p [-> [M [N [C1 C2]]]]].
    exists p. split; [reflexivity|]. split; [lia|]. split; [exact N|]. exact C2.
Qed.

(** The search gives up only if every port was taken when it was tried. *)
Theorem C81_no_free_ports : forall l i c, called (run init l) i c -> ended (run init l) i NoFreePorts ->
  exists h start, searches c h start /\
    (0 < start -> forall q, start <= q <= 65535 -> q <> 25978 -> during l i (fun w => taken refuses w (resolve h, q))).
Proof. intros l i c [ph G] [c' E]. rewrite E in G. injection G as -> <-. apply good_run in E. apply E. Qed.

(** A call that may not start a server leaves no socket behind. *)
Theorem C81_only_when_asked : forall l i given auto env, called (run init l) i (Ensure given auto env) -> ~ may_start given auto env ->
  forall n s, In (n, s) (socks (run init l)) -> s_owner s <> Some i.
Proof.
  intros l i given auto env [ph G] N n s I O. destruct (i_owner _ (inv_run resolve refuses l) n s i I O) as [c [ph' [G' Ft]]].
  rewrite G in G'. injection G' as <- <-. apply good_run in G. destruct Ft as [_ [[-> _]|[[-> _]|[-> _]]]]; apply N; apply G.
Qed.

(** The moment ensure() returns, a graph server listens at the address the context hands on. *)
Theorem C81_context_reaches : forall l e i given auto env o,
  (forall h, resolve (resolve h) = resolve h) -> 0 < env_server_start env -> (forall a, given = Some a -> snd a <> 0) ->
  called (run init l) i (Ensure given auto env) -> pending (run init l) i -> (forall n, ~ In (Stop i n) (l ++ [e])) ->
  ended (run init (l ++ [e])) i o -> (o = Found \/ exists a, o = Started a) ->
  served (run init (l ++ [e])) (at_ resolve (meant (graph_address given o) env)).
Proof.
  intros l e i given auto env o Idem Hs Hp Ca Pe NS En [->|[a ->]].
  - cbn [graph_address]. destruct Ca as [ph G]. destruct Pe as [c [ph1 [G1 ND]]]. rewrite G in G1. injection G1 as <- <-.
    destruct En as [c' E]. rewrite run_one in *. pose proof (good_run resolve refuses l i _ ph G) as Gd.
    rewrite <- (aims_ensure given auto env).
    destruct (step_move resolve refuses (run init l) e) as [X|M]; [rewrite X in E; rewrite G in E; injection E as -> ->; now destruct (ND Found)|].
    remember (step resolve refuses (run init l) e) as w' eqn:X. clear X.
    destruct M as [j d Gj|j k b Gj Gk|e j d p p' Gj P|j port d p b reuse Gj A B|j port d m u Gj Gn L|j port d m u v Gj Gn L Kc
                 |j m d p Gj|b reuse listens B|m u Gn Ow]; unfold set_phase in *; cbn [agents socks] in *;
      try (rewrite get_put in E; destruct (dec i j) as [->|NE]; [|rewrite G in E; injection E as _ ->; now destruct (ND Found)]).
    + congruence.
    + rewrite get_put in E; destruct (dec i k) as [->|NE]; [congruence|]. rewrite get_put in E.
      destruct (dec i j) as [->|NE2]; [congruence|]. rewrite G in E; injection E as _ ->; now destruct (ND Found).
    + injection E as <- ->. rewrite G in Gj. injection Gj as <- <-. inversion P; subst.
      * exfalso. destruct (ensure_server given auto env); [destruct given|]; discriminate.
      * cbn [good] in Gd. destruct Gd as [_ [A _]]. match goal with Q : get _ (socks _) = Some _ |- _ => apply get_In in Q; rename Q into Is end.
        exists n, s. repeat split; auto.
      * exfalso. destruct reset; [|discriminate]. cbn in *. destruct (ensure_server given auto env); [destruct given|]; discriminate.
    + discriminate.
    + discriminate.
    + discriminate.
    + exfalso. apply (NS m). unfold stop in E. rewrite Gj in E. cbn [agents] in E. rewrite get_put in E.
      destruct (dec i j) as [->|NE]; [apply in_app_iff; right; now left|]. rewrite G in E; injection E as _ ->; now destruct (ND Found).
    + rewrite G in E; injection E as _ ->; now destruct (ND Found).
    + rewrite G in E; injection E as _ ->; now destruct (ND Found).
  - cbn [graph_address meant]. destruct (C81_started_listens (l ++ [e]) i a En NS) as [[n [s [I [A [L O]]]]] _].
    assert (Ca' : called (run init (l ++ [e])) i (Ensure given auto env)) by now apply called_mono.
    assert (AT : at_ resolve a = a).
    { destruct (C81_where _ _ _ _ Ca' En) as [[b [D [_ Q]]]|[h [st [S Q]]]].
      - assert (Z : snd b <> 0). { destruct given as [g|]; [|destruct D]. cbn in D. subst g. now apply Hp. }
        rewrite (Q Z). unfold at_. cbn [fst snd]. now rewrite Idem.
      - assert (Z : 0 < st). { destruct given as [g|]; [destruct S|]. destruct S as [_ ->]. exact Hs. }
        destruct (Q Z) as [p [-> _]]. unfold at_. cbn [fst snd]. now rewrite Idem. }
    rewrite AT. exists n, s. repeat split; auto.
    destruct (i_owner _ (inv_run resolve refuses (l ++ [e])) n s i I O) as [c' [ph [G [K _]]]].
    destruct Ca' as [ph2 G2]. rewrite G in G2. injection G2 as -> _. exact K.
Qed.

(** If nothing else happens meanwhile, ensure() finds the server that is there, or else starts one where it should or
    raises, as [verdict] says. *)
Theorem C81_alone : forall l i given auto env ports,
  (forall c, ~ called (run init l) i c) -> resolve "127.0.0.1"%string = "127.0.0.1"%string ->
  0 < env_server_start env -> (forall a, given = Some a -> port_ok (snd a)) ->
  ~ squatted (run init l) (at_ resolve (meant given env)) -> (N.to_nat 65540 <= length ports)%nat ->
  exists o, verdict resolve refuses (run init l) given auto env o /\
    ended (run init (l ++ Call i (Ensure given auto env) :: map (Go i) ports)) i o.
Proof.
  intros l i given auto env ports Fr R0 Hs Hg Sq Hl. rewrite run_app. apply ensure_alone; auto; [apply inv_run|].
  destruct (get i (agents (run init l))) as [[c ph]|] eqn:G; [|reflexivity]. exfalso. apply (Fr c). now exists ph.
Qed.

(** A server at a given address can be started again at once after it was stopped, whatever connections linger. *)
Theorem C81_restart : forall l i c a b k j env p p',
  called (run init l) i c -> demands c a -> port_ok (snd a) -> ended (run init l) i (Started b) ->
  (forall n, ~ In (Stop i n) l) ->
  (forall n s, In (n, s) (socks (run init l)) -> s_addr s = b -> s_owner s = Some i) ->
  (forall d, ~ called (run init l) j d) ->
  ended (run init (l ++ [Stop i k; Call j (Create (Some a) env); Go j p; Go j p'])) j (Started b).
Proof.
  intros l i c a b k j env p p' Ca D P En NS Own Fr.
  assert (B : b = at_ resolve a).
  { destruct (C81_where _ _ _ _ Ca En) as [[b' [D' [_ Q]]]|[h [st [S _]]]].
    - assert (b' = a) by (destruct c as [[?|] ? ?|[?|] ?|?|[?|] [?|] ?]; cbn in D, D'; try contradiction; congruence). subst b'.
      apply Q. unfold port_ok in P. lia.
    - exfalso. destruct c as [[?|] ? ?|[?|] ?|?|[?|] [?|] ?]; cbn in D, S; tauto. }
  subst b. destruct (C81_started_listens l i _ En NS) as [[n [s [I [A _]]]] _].
  assert (R : refuses (at_ resolve a) = false) by (rewrite <- A; eapply sock_allowed; eauto).
  pose proof (stop_frees resolve refuses l i c a k Ca D R Own) as F.
  replace (l ++ [Stop i k; Call j (Create (Some a) env); Go j p; Go j p'])
    with ((l ++ [Stop i k]) ++ Call j (Create (Some a) env) :: map (Go j) [p; p']) by (rewrite <- app_assoc; reflexivity).
  rewrite run_app, run_cons. pose proof (inv_run resolve refuses (l ++ [Stop i k])) as Iw.
  remember (run init (l ++ [Stop i k])) as w eqn:X. cbn [step].
  assert (G : get j (agents w) = None).
  { subst w. rewrite run_one. cbn [step]. assert (Gj : get j (agents (run init l)) = None).
    { destruct (get j (agents (run init l))) as [[d ph]|] eqn:G; [|reflexivity]. exfalso. apply (Fr d). now exists ph. }
    unfold stop. destruct (get i (agents (run init l))) as [ag|] eqn:Gi; [|exact Gj]. cbn [agents].
    rewrite get_put_neq; [exact Gj|congruence]. }
  rewrite G. cbn [first_phase begin_start].
  apply (create_alone resolve refuses (set_phase w j (Create (Some a) env) (Binding a)) j (Create (Some a) env) a p [p']).
  - apply inv_quiet; [exact Iw| |reflexivity]. intros c' ph E. congruence.
  - apply get_phase.
  - exact P.
  - cbn. lia.
  - exact F.
Qed.

End Props.

Print Assumptions C81_outcomes.
Print Assumptions C81_started_listens.
Print Assumptions C81_different_addresses.
Print Assumptions C81_where.
Print Assumptions C81_no_free_ports.
Print Assumptions C81_only_when_asked.
Print Assumptions C81_context_reaches.
Print Assumptions C81_alone.
Print Assumptions C81_restart.

(** ** Cases and findings *)

Definition same (h : string) : string := h.
Definition open (a : addr) : bool := false.
Notation here p := ("127.0.0.1"%string, p).

Definition plain : environ := mkEnv None 10000 25980.
Definition gos (i n : nat) : list event := repeat (Go i 0) n.

Ltac check := vm_compute; repeat eexists.

(** From port 25977 on: 25977 is taken by another program, 25978 is left out, the server starts at 25979; a second
    context that is given its address finds it; it is stopped while a connection lingers, and started again. *)
Example C81_case :
  let env := mkEnv None 25977 25980 in
  let l := Other (here 25977) false true :: Call 0 (Ensure None None env) :: gos 0 5 in
  ended (run same open init l) 0 (Started (here 25979)) /\
  ended (run same open init (l ++ Call 1 (Ensure (Some (here 25979)) None env) :: gos 1 2)) 1 Found /\
  ended (run same open init (l ++ [Stop 0 1; Call 1 (Ensure (Some (here 25979)) None env); Go 1 0])) 1 Refused /\
  ended (run same open init (l ++ Call 1 (Create (Some (here 4000)) env) :: gos 1 2 ++ [Stop 1 2] ++
                             Call 2 (Create (Some (here 4000)) env) :: gos 2 2)) 2 (Started (here 4000)).
Proof. check. Qed.

(** C81 finding: run() says that without an address it starts a graph server at 127.0.0.1:25978 (backend.py 947); the
    server is started on another port. *)
Theorem C81_at_the_documented_address_refuted :
  ~ (forall l i a, called (run same open init l) i (Ensure None None plain) -> ended (run same open init l) i (Started a) ->
       a = here 25978).
Proof.
  intros H. specialize (H (Call 0 (Ensure None None plain) :: gos 0 3) 0%nat (here 10000)).
  assert (E : here 10000 = here 25978) by (apply H; check). discriminate E.
Qed.
Print Assumptions C81_at_the_documented_address_refuted.

(** C81 finding: two programs run with the defaults on one machine do not meet: the second does not find the server of the
    first, which is not where it looks, and starts its own. *)
Theorem C81_defaults_meet_refuted :
  exists l a b, ended (run same open init l) 0 (Started a) /\ serves (run same open init l) 0 a /\
    called (run same open init l) 1 (Ensure None None plain) /\ ended (run same open init l) 1 (Started b) /\
    serves (run same open init l) 1 b /\ a <> b.
Proof.
  set (l := Call 0 (Ensure None None plain) :: gos 0 3 ++ Call 1 (Ensure None None plain) :: gos 1 4).
  assert (E0 : ended (run same open init l) 0 (Started (here 10000))) by check.
  assert (E1 : ended (run same open init l) 1 (Started (here 10001))) by check.
  assert (NS : forall i n, ~ In (Stop i n) l) by (intros i n I; cbn in I; intuition discriminate).
  exists l, (here 10000), (here 10001). split; [exact E0|]. split; [apply C81_started_listens; auto|]. split; [check|].
  split; [exact E1|]. split; [apply C81_started_listens; auto|]. discriminate.
Qed.
Print Assumptions C81_defaults_meet_refuted.

(** A call whose server thread has died never returns. *)
Lemma stuck_forever resolve refuses l : forall w i, (exists c ph, get i (agents w) = Some (mkAgent c ph) /\ ((exists n, ph = Stuck n) \/ ph = Gone)) ->
  pending (run resolve refuses w l) i.
Proof.
  induction l as [|e l IH]; intros w i [c [ph [G D]]].
  - exists c, ph. split; [exact G|]. intros o ->. destruct D as [[n D]|D]; discriminate.
  - rewrite run_cons. apply IH. destruct (step_move resolve refuses w e) as [->|M]; [eauto|].
    remember (step resolve refuses w e) as w' eqn:X. clear X.
    destruct M as [j d Gj|j k b Gj Gk|e j d p p' Gj P|j port d p b reuse Gj A B|j port d m u Gj Gn L|j port d m u v Gj Gn L Kc
                 |j m d p Gj|b reuse listens B|m u Gn Ow]; unfold set_phase in *; cbn [agents socks] in *;
      try (rewrite get_put; destruct (dec i j) as [->|NE]; [|now eauto]; rewrite G in Gj); eauto.
    + discriminate.
    + rewrite get_put. destruct (dec i k) as [->|NE]; [congruence|]. rewrite get_put. destruct (dec i j) as [->|NE2]; [|eauto].
      rewrite G in Gj. injection Gj as -> ->. destruct D as [[n D]|D]; discriminate.
    + injection Gj as <- <-. destruct D as [[n ->]| ->]; inversion P.
    + injection Gj as <- <-. destruct D as [[n ->]| ->]; inversion A.
    + injection Gj as <- ->. destruct D as [[n D]|D]; discriminate.
    + injection Gj as <- ->. destruct D as [[n D]|D]; discriminate.
    + unfold stop. rewrite Gj. cbn [agents]. rewrite get_put. destruct (dec i j) as [->|NE]; [|eauto].
      rewrite G in Gj. injection Gj as <- <-. cbn. eexists. eexists. split; [reflexivity|]. right. destruct D as [[n ->]| ->]; reflexivity.
Qed.

(** C81 finding: two programs that are given the same address with auto_start, started at the same time (as the examples
    simple_publisher and simple_subscriber are): both may bind the address, and then the second call hangs, whatever
    happens afterwards. *)
Theorem C81_race_hangs_refuted :
  exists l, called (run same open init l) 1 (Ensure (Some (here 4000)) (Some true) plain) /\
    serves (run same open init l) 0 (here 4000) /\
    forall l', pending (run same open init (l ++ l')) 1.
Proof.
  set (c := Ensure (Some (here 4000)) (Some true) plain).
  set (l := [Call 0 c; Call 1 c; Go 0 0; Go 1 0; Go 0 0; Go 1 0; Go 0 0; Go 1 0]).
  assert (E0 : ended (run same open init l) 0 (Started (here 4000))) by check.
  exists l. split; [check|]. split.
  - apply C81_started_listens; [exact E0|]. intros n I. cbn in I. intuition discriminate.
  - intros l'. rewrite run_app. apply stuck_forever. exists c, (Stuck 1). split; [vm_compute; reflexivity|]. left. now exists 1%nat.
Qed.
Print Assumptions C81_race_hangs_refuted.

(** C81 finding: or the second call raises, although a graph server listens at the address by then. *)
Theorem C81_race_raises_refuted :
  exists l e, called (run same open init l) 1 (Ensure (Some (here 4000)) (Some true) plain) /\
    pending (run same open init l) 1 /\ serves (run same open init l) 0 (here 4000) /\
    ended (run same open init (l ++ [e])) 1 Unavailable /\ serves (run same open init (l ++ [e])) 0 (here 4000).
Proof.
  set (c := Ensure (Some (here 4000)) (Some true) plain).
  set (l := [Call 0 c; Call 1 c; Go 0 0; Go 1 0; Go 0 0; Go 0 0]).
  assert (E0 : ended (run same open init l) 0 (Started (here 4000))) by check.
  exists l, (Go 1 0). split; [check|]. split.
  { exists c, (Binding (here 4000)). split; [vm_compute; reflexivity|]. intros o E. discriminate E. }
  split; [apply C81_started_listens; [exact E0|]; intros n I; cbn in I; intuition discriminate|]. split; [check|].
  apply C81_started_listens; [now apply ended_mono|]. intros n I. cbn in I. intuition discriminate.
Qed.
Print Assumptions C81_race_raises_refuted.

(** C81 finding: `ezmsg start` reports that it forked a server although the one it forked has failed, when another already
    listens at the address. *)
Theorem C81_start_reports_refuted :
  exists l, called (run same open init l) 1 (StartCommand (here 25978)) /\ ended (run same open init l) 1 Found /\
    called (run same open init l) 2 (Create (Some (here 25978)) (mkEnv None 0 0)) /\ ended (run same open init l) 2 Unavailable.
Proof.
  exists (Call 0 (Create (Some (here 25978)) plain) :: gos 0 2 ++ [Call 1 (StartCommand (here 25978)); Fork 1 2; Go 2 0; Go 1 0; Go 1 0]).
  split; [check|]. split; [check|]. split; check.
Qed.
Print Assumptions C81_start_reports_refuted.

(** C81 finding: `ezmsg start` tries for ever when the server it forked has failed and nobody listens at the
    address. *)
Theorem C81_start_for_ever_refuted :
  exists l, called (run same open init l) 0 (StartCommand (here 25978)) /\
    ended (run same open init l) 1 Unavailable /\
    forall ports, pending (run same open init (l ++ map (Go 0) ports)) 0.
Proof.
  set (l := [Other (here 25978) false false; Call 0 (StartCommand (here 25978)); Fork 0 1; Go 1 0]).
  exists l. split; [check|]. split; [check|]. intros ports. rewrite run_app.
  assert (G : get 0%nat (agents (run same open init l)) = Some (mkAgent (StartCommand (here 25978)) Connecting)) by (vm_compute; reflexivity).
  assert (S : forall p, step same open (run same open init l) (Go 0 p) = run same open init l) by (intros p; vm_compute; reflexivity).
  induction ports as [|p ports IH].
  - exists (StartCommand (here 25978)), Connecting. split; [exact G|]. intros o E. discriminate.
  - cbn [map]. rewrite run_cons, S. exact IH.
Qed.
Print Assumptions C81_start_for_ever_refuted.

(** C81 finding: a GraphService that started a server by default keeps its address, so it does not start one again
    when that has stopped: the same call then raises. *)
Theorem C81_service_asked_again_refuted :
  exists l o o', ended (run same open init l) 0 o /\ called (run same open init l) 0 (Ensure None None plain) /\
    o = Started (here 10000) /\
    called (run same open init l) 1 (Ensure (graph_address None o) None plain) /\ ended (run same open init l) 1 o' /\ o' = Refused.
Proof.
  exists (Call 0 (Ensure None None plain) :: gos 0 3 ++ [Stop 0 0; Call 1 (Ensure (Some (here 10000)) None plain); Go 1 0]).
  exists (Started (here 10000)), Refused. split; [check|]. split; [check|]. split; [reflexivity|]. split; [check|]. split; [check|reflexivity].
Qed.
Print Assumptions C81_service_asked_again_refuted.

(** C81 finding: a GraphContext that is entered again while its server runs forgets that server: ensure() now finds it and
    returns nothing, and the context hands on its original address, where nobody listens. *)
Theorem C81_entered_twice_refuted :
  exists l a, ended (run same open init l) 0 (Started a) /\ serves (run same open init l) 0 a /\
    called (run same open init l) 1 (Ensure (graph_address None (Started a)) None plain) /\ ended (run same open init l) 1 Found /\
    ~ served (run same open init l) (at_ same (meant (graph_address None Found) plain)).
Proof.
  set (l := Call 0 (Ensure None None plain) :: gos 0 3 ++ Call 1 (Ensure (Some (here 10000)) None plain) :: gos 1 2).
  assert (E0 : ended (run same open init l) 0 (Started (here 10000))) by check.
  exists l, (here 10000). split; [exact E0|]. split; [apply C81_started_listens; auto; intros n I; cbn in I; intuition discriminate|].
  split; [check|]. split; [check|]. intros [n [s [I [A _]]]]. vm_compute in I. destruct I as [I|[]]. injection I as _ <-. discriminate A.
Qed.
Print Assumptions C81_entered_twice_refuted.

(** C81 finding: a server that chose its port by itself did so without SO_REUSEADDR; as long as one of its connections lingers,
    none can be started at that very address. *)
Theorem C81_restart_chosen_port_refuted :
  exists l, ended (run same open init l) 0 (Started (here 10000)) /\
    called (run same open init l) 1 (Create (Some (here 10000)) plain) /\ ended (run same open init l) 1 Unavailable /\
    forall n s, In (n, s) (socks (run same open init l)) -> s_listens s = false.
Proof.
  exists (Call 0 (Create None plain) :: gos 0 2 ++ [Stop 0 1; Call 1 (Create (Some (here 10000)) plain); Go 1 0]).
  split; [check|]. split; [check|]. split; [check|]. intros n s I. vm_compute in I. destruct I as [I|[]]. now injection I as _ <-.
Qed.
Print Assumptions C81_restart_chosen_port_refuted.
