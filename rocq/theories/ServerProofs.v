(* Proofs about the graph server: the invariants of its clients, of its
   settings and of its routed requests, by induction over executions. *)

From Coq Require Import String List Arith Bool Lia.
From Verif Require Import Dict DagModel DagSpec DagProofs EventLogModel EventLogSpec EventLogProofs
  ServerModel ServerSpec ServerFrames.
Import ListNotations.

Lemma del_put_same {K V} `{Dec K} (k : K) (v : V) d : del k (put k v d) = del k d.
Proof.
  unfold del. induction d as [|[k2 v2] d IH]; cbn; [now rewrite eqd_refl|].
  destruct (dec k k2) as [->|N]; cbn.
  - now rewrite eqd_refl.
  - rewrite IH. reflexivity.
Qed.

Lemma eqd_neq {K} `{Dec K} (x y : K) : x <> y -> eqd x y = false.
Proof. apply eqd_false. Qed.

(* ---- since ---- *)

Section Since.
Context {E : Type}.
Implicit Types (h : list E) (P K : E -> Prop).

Lemma since_nil P K : ~ since [] P K.
Proof. intros [b [e [a [H _]]]]. destruct b; discriminate. Qed.

Lemma since_snoc h x P K : since (h ++ [x]) P K <-> P x \/ (since h P K /\ ~ K x).
Proof.
  split.
  - intros [b [e [a [H [Pe Ka]]]]]. destruct a as [|y a] using rev_ind.
    + apply app_inj_tail in H as [-> ->]. now left.
    + clear IHa. rewrite app_comm_cons, app_assoc in H. apply app_inj_tail in H as [-> ->].
      right. split.
      * exists b, e, a. split; [reflexivity|]. split; [assumption|]. intros z I.
        apply Ka. apply in_app_iff; now left.
      * apply Ka. apply in_app_iff; right; now left.
  - intros [Px|[[b [e [a [-> [Pe Ka]]]]] N]].
    + exists h, x, []. split; [reflexivity|]. split; [assumption|]. intros z [].
    + exists b, e, (a ++ [x]). split; [now rewrite <- app_assoc|]. split; [assumption|].
      intros z I. apply in_app_iff in I as [I|[<-|[]]]; auto.
Qed.

Lemma since_other h x P K : ~ P x -> ~ K x -> (since (h ++ [x]) P K <-> since h P K).
Proof. intros A B. rewrite since_snoc. tauto. Qed.
End Since.

(* ---- clients ---- *)

Record CInv3 (n : nat) (d : dag) (cs : list (nat * client)) : Prop := {
  c_nodup : NoDup (keys cs);
  c_ids : forall id, In id (keys cs) -> id < n;
  c_dag : DInv d;
  c_edges : forall sid es md, get sid cs = Some (CSess es md) ->
      forall e, In e es <-> owner_of d e (Some sid);
  c_live : forall e sid, owner_of d e (Some sid) -> exists es md, get sid cs = Some (CSess es md);
  c_units : forall p q us vs u, get p cs = Some (CProc us) -> get q cs = Some (CProc vs) ->
      In u us -> In u vs -> p = q;
  c_mds : forall p q es1 es2 md1 md2 a, get p cs = Some (CSess es1 (Some md1)) ->
      get q cs = Some (CSess es2 (Some md2)) -> In a (keys md1) -> In a (keys md2) -> p = q
}.

Definition CInv (s : server) : Prop := CInv3 (s_next s) (s_dag s) (s_clients s).

Lemma CInv_new sl tl : CInv (new_server sl tl).
Proof.
  constructor; cbn; try discriminate.
  - constructor.
  - intros id [].
  - exact DInv_empty.
  - intros e sid [].
Qed.

Definition harmless (c : client) : Prop :=
  match c with
  | CSess (_ :: _) _ | CSess _ (Some _) | CProc (_ :: _) => False
  | _ => True
  end.

Lemma CInv_fresh n d cs c : CInv3 n d cs -> harmless c -> CInv3 (S n) d (put n c cs).
Proof.
  intros I Hc. assert (Fr : get n cs = None).
  { apply get_None. intros K. apply (c_ids _ _ _ I) in K. lia. }
  constructor.
  - apply NoDup_keys_put, I.
  - intros id K. apply keys_put in K as [->|K]; [lia|]. apply (c_ids _ _ _ I) in K; lia.
  - apply I.
  - intros sid es md G e. rewrite get_put in G. destruct (dec sid n) as [->|N].
    + injection G as ->. destruct es as [|e0 es]; [|destruct Hc]. split; [intros []|].
      intros O. apply (c_live _ _ _ I) in O as [es [md' K]]. congruence.
    + exact (c_edges _ _ _ I sid es md G e).
  - intros e sid O. apply (c_live _ _ _ I) in O as [es [md G]]. exists es, md.
    rewrite get_put_neq; [assumption|]. congruence.
  - intros p q us vs u Gp Gq A B. rewrite get_put in Gp, Gq.
    destruct (dec p n) as [->|Np].
    { injection Gp as ->. destruct us; [destruct A|destruct Hc]. }
    destruct (dec q n) as [->|Nq].
    { injection Gq as ->. destruct vs; [destruct B|destruct Hc]. }
    eapply (c_units _ _ _ I); eauto.
  - intros p q es1 es2 md1 md2 a Gp Gq A B. rewrite get_put in Gp, Gq.
    destruct (dec p n) as [->|Np]. { injection Gp as ->. destruct es1; destruct Hc. }
    destruct (dec q n) as [->|Nq]. { injection Gq as ->. destruct es2; destruct Hc. }
    eapply (c_mds _ _ _ I); eauto.
Qed.

Lemma CInv_more n d cs : CInv3 n d cs -> CInv3 (S n) d cs.
Proof. intros [A B C D E F G]; constructor; auto. intros id K; apply B in K; lia. Qed.

(** A client that owns no edge is deleted. *)
Lemma CInv_del n d cs id : CInv3 n d cs -> (forall e, ~ owner_of d e (Some id)) ->
  CInv3 n d (del id cs).
Proof.
  intros I Hn. constructor.
  - apply NoDup_keys_del, I.
  - intros k K. apply keys_del in K as [_ K]. now apply (c_ids _ _ _ I).
  - apply I.
  - intros sid es md G. rewrite get_del in G. destruct (dec sid id); [discriminate|].
    exact (c_edges _ _ _ I sid es md G).
  - intros e sid O. destruct (Nat.eq_dec sid id) as [->|N]; [exfalso; now apply (Hn e)|].
    apply (c_live _ _ _ I) in O as [es [md G]]. exists es, md. now rewrite get_del_neq.
  - intros p q us vs u Gp Gq. rewrite get_del in Gp, Gq.
    destruct (dec p id); [discriminate|]. destruct (dec q id); [discriminate|].
    eapply (c_units _ _ _ I); eauto.
  - intros p q es1 es2 md1 md2 a Gp Gq. rewrite get_del in Gp, Gq.
    destruct (dec p id); [discriminate|]. destruct (dec q id); [discriminate|].
    eapply (c_mds _ _ _ I); eauto.
Qed.

Lemma CInv_proc n d cs pid us0 us : CInv3 n d cs -> get pid cs = Some (CProc us0) ->
  (forall q vs u, q <> pid -> get q cs = Some (CProc vs) -> In u us -> ~ In u vs) ->
  CInv3 n d (put pid (CProc us) cs).
Proof.
  intros I G0 Free. constructor.
  - apply NoDup_keys_put, I.
  - intros k K. apply keys_put in K as [->|K]; [|now apply (c_ids _ _ _ I)].
    apply (c_ids _ _ _ I). now apply get_Some_key in G0.
  - apply I.
  - intros sid es md G. rewrite get_put in G. destruct (dec sid pid); [discriminate|].
    exact (c_edges _ _ _ I sid es md G).
  - intros e sid O. apply (c_live _ _ _ I) in O as [es [md G]]. exists es, md.
    rewrite get_put_neq; [assumption|congruence].
  - intros p q xs ys u Gp Gq A B. rewrite get_put in Gp, Gq.
    destruct (dec p pid) as [->|Np]; destruct (dec q pid) as [->|Nq]; [reflexivity| | |].
    + injection Gp as <-. exfalso. now apply (Free q ys u).
    + injection Gq as <-. exfalso. now apply (Free p xs u).
    + eapply (c_units _ _ _ I); eauto.
  - intros p q es1 es2 md1 md2 a Gp Gq. rewrite get_put in Gp, Gq.
    destruct (dec p pid); [discriminate|]. destruct (dec q pid); [discriminate|].
    eapply (c_mds _ _ _ I); eauto.
Qed.

(** A session changes its edges and metadata, and the graph with it. *)
Lemma CInv_sess n d cs sid es0 md0 d' es md : CInv3 n d cs -> get sid cs = Some (CSess es0 md0) ->
  DInv d' ->
  (forall e, In e es <-> owner_of d' e (Some sid)) ->
  (forall e o, o <> Some sid -> (owner_of d' e o <-> owner_of d e o)) ->
  (forall m a q es2 md2, md = Some m -> q <> sid -> get q cs = Some (CSess es2 (Some md2)) ->
     In a (keys m) -> ~ In a (keys md2)) ->
  CInv3 n d' (put sid (CSess es md) cs).
Proof.
  intros I G0 Id He Ho Hm. constructor.
  - apply NoDup_keys_put, I.
  - intros k K. apply keys_put in K as [->|K]; [|now apply (c_ids _ _ _ I)].
    apply (c_ids _ _ _ I). now apply get_Some_key in G0.
  - assumption.
  - intros q es' md' G e. rewrite get_put in G. destruct (dec q sid) as [->|N].
    + injection G as <- <-. apply He.
    + rewrite (Ho e (Some q)) by congruence. exact (c_edges _ _ _ I q es' md' G e).
  - intros e q O. rewrite get_put. destruct (dec q sid) as [->|N]; [eauto|].
    apply Ho in O; [|congruence]. now apply (c_live _ _ _ I) in O.
  - intros p q us vs u Gp Gq. rewrite get_put in Gp, Gq.
    destruct (dec p sid); [discriminate|]. destruct (dec q sid); [discriminate|].
    eapply (c_units _ _ _ I); eauto.
  - intros p q es1 es2 md1 md2 a Gp Gq A B. rewrite get_put in Gp, Gq.
    destruct (dec p sid) as [->|Np]; destruct (dec q sid) as [->|Nq]; [reflexivity| | |].
    + injection Gp as _ ->. exfalso. now apply (Hm md1 a q es2 md2).
    + injection Gq as _ ->. exfalso. now apply (Hm md2 a p es1 md1).
    + eapply (c_mds _ _ _ I); eauto.
Qed.

(** The graph changes, sessions keep their edges. *)
Lemma CInv_dag n d cs d' : CInv3 n d cs -> DInv d' ->
  (forall e sid, owner_of d' e (Some sid) <-> owner_of d e (Some sid)) -> CInv3 n d' cs.
Proof.
  intros I Id Ho. destruct I as [A B C D E F G]. constructor; auto.
  - intros sid es md Gs e. rewrite Ho. eauto.
  - intros e sid O. apply Ho in O. eauto.
Qed.

Lemma process_owner_Some u cs : forall o, process_owner u cs = Some o ->
  exists us, In (o, CProc us) cs /\ In u us.
Proof.
  induction cs as [|[id c] cs IH]; intros o; cbn; [discriminate|].
  destruct c as [t|t|pb|es md|us];
    try (intros E; apply IH in E as [vs [A B]]; exists vs; split; [now right|assumption]).
  destruct (mem u us) eqn:M.
  - intros [= <-]. exists us. split; [now left|now apply mem_In].
  - intros E; apply IH in E as [vs [A B]]; exists vs; split; [now right|assumption].
Qed.

Lemma process_owner_None u cs : process_owner u cs = None ->
  forall p us, In (p, CProc us) cs -> ~ In u us.
Proof.
  induction cs as [|[id c] cs IH]; cbn; [intros _ p us []|].
  intros E p us [Q|I].
  - injection Q as -> ->. destruct (mem u us) eqn:M; [discriminate|]. now apply mem_false.
  - destruct c as [t|t|pb|es md|vs]; try (eapply IH; eauto; fail).
    destruct (mem u vs); [discriminate|]. eapply IH; eauto.
Qed.

Lemma session_owner_Some a cs : forall o, session_owner a cs = Some o ->
  exists es md, In (o, CSess es (Some md)) cs /\ In a (keys md).
Proof.
  induction cs as [|[id c] cs IH]; intros o; cbn; [discriminate|].
  destruct c as [t|t|pb|es [md|]|us];
    try (intros E; apply IH in E as [es' [md' [A B]]]; exists es', md'; split; [now right|assumption]).
  destruct (mem a (keys md)) eqn:M.
  - intros [= <-]. exists es, md. split; [now left|now apply mem_In].
  - intros E; apply IH in E as [es' [md' [A B]]]; exists es', md'; split; [now right|assumption].
Qed.

Lemma session_owner_None a cs : session_owner a cs = None ->
  forall p es md, In (p, CSess es (Some md)) cs -> ~ In a (keys md).
Proof.
  induction cs as [|[id c] cs IH]; cbn; [intros _ p es md []|].
  intros E p es md [Q|I].
  - injection Q as -> ->. destruct (mem a (keys md)) eqn:M; [discriminate|]. now apply mem_false.
  - destruct c as [t|t|pb|es' [md'|]|vs]; try (eapply IH; eauto; fail).
    destruct (mem a (keys md')); [discriminate|]. eapply IH; eauto.
Qed.

Lemma conflicts_nil pid us s : NoDup (keys (s_clients s)) ->
  (forall p q us vs u, get p (s_clients s) = Some (CProc us) -> get q (s_clients s) = Some (CProc vs) ->
      In u us -> In u vs -> p = q) ->
  (conflicts pid us s = [] <->
   forall q vs u, q <> pid -> get q (s_clients s) = Some (CProc vs) -> In u us -> ~ In u vs).
Proof.
  intros ND Un. unfold conflicts. split.
  - intros E q vs u N G Iu Iv.
    assert (F : ~ In u (filter (fun u => match process_owner u (s_clients s) with
                   | Some o => negb (eqd o pid) | None => false end) us)) by (rewrite E; auto).
    apply F. apply filter_In. split; [assumption|].
    destruct (process_owner u (s_clients s)) as [o|] eqn:P.
    + apply process_owner_Some in P as [ws [A B]]. apply In_get in A; [|assumption].
      assert (o = q) by (eapply Un; eauto). subst o. now rewrite (eqd_neq q pid N).
    + exfalso. apply get_In in G. now apply (process_owner_None u _ P q vs).
  - intros Fr. destruct (filter _ us) as [|u l] eqn:E; [reflexivity|].
    assert (J : In u (u :: l)) by now left. rewrite <- E in J. apply filter_In in J as [A B].
    destruct (process_owner u (s_clients s)) as [o|] eqn:P; [|discriminate].
    apply negb_true_iff, (proj1 (eqd_false _ _)) in B.
    apply process_owner_Some in P as [ws [C D]]. apply In_get in C; [|assumption].
    exfalso. now apply (Fr o ws u).
Qed.

Lemma collisions_nil sid md s : NoDup (keys (s_clients s)) ->
  (metadata_collisions sid md s = [] <->
   forall q es md' a, q <> sid -> get q (s_clients s) = Some (CSess es (Some md')) ->
     In a (keys md) -> ~ In a (keys md')).
Proof.
  intros ND. unfold metadata_collisions. split.
  - intros E q es md' a N G Ia Ib.
    assert (F : In a (flat_map (fun p => match snd p with
       | CSess _ (Some md') => if eqd (fst p) sid then [] else filter (fun a => mem a (keys md')) (keys md)
       | _ => [] end) (s_clients s))).
    { apply in_flat_map. exists (q, CSess es (Some md')). split; [now apply get_In|].
      cbn [fst snd]. rewrite (eqd_neq q sid N). apply filter_In. split; [assumption|now apply mem_In]. }
    rewrite E in F. destruct F.
  - intros Fr. destruct (flat_map _ _) as [|a l] eqn:E; [reflexivity|].
    assert (J : In a (a :: l)) by now left. rewrite <- E in J.
    apply in_flat_map in J as [[q c] [I F]]. cbn [fst snd] in F.
    destruct c as [t|t|pb|es [md'|]|vs]; try (destruct F; fail).
    destruct (eqd q sid) eqn:Eq; [destruct F|]. apply (proj1 (eqd_false _ _)) in Eq.
    apply filter_In in F as [A B]. apply mem_In in B. apply In_get in I; [|assumption].
    exfalso. now apply (Fr q es md' a).
Qed.

(* ---- sessions ---- *)

Lemma graph_changed_eq ts src s : exists tl, graph_changed_event ts src s = set_tlog tl s.
Proof.
  destruct ts; [exists (s_tlog s); now destruct s|]. eexists; reflexivity.
Qed.

(** What clearing or dropping a session has done to the graph. *)
Record cleared (sid : nat) (d d' : dag) (ts : list topic) : Prop := {
  cl_dag : DInv d';
  cl_owner : forall e o, owner_of d' e o <-> owner_of d e o /\ o <> Some sid;
  cl_topics : forall t, In t ts <-> exists f, has_edge d f t /\ ~ has_edge d' f t
}.

Lemma drop_edges_eq sid s es md : CInv s -> session_info sid s = Some (es, md) ->
  exists d' ts, drop_edges sid es s =
     (set_clients (put sid (CSess [] md) (s_clients s)) (set_dag d' s), ts) /\
     cleared sid (s_dag s) d' ts.
Proof.
  intros I E. pose proof (c_edges _ _ _ I sid es md (proj1 (session_info_get _ _ _ _) E)) as Ee.
  destruct (drop_fold sid md es s es [] E (c_dag _ _ _ I) (NoDup_nil _))
    as [d' [es' [ts' [Eq [Id [O [L [T _]]]]]]]].
  assert (es' = []) as ->.
  { destruct es' as [|e l]; [reflexivity|]. assert (J : In e (e :: l)) by now left.
    apply L in J; tauto. }
  exists d', ts'. split; [exact Eq|]. constructor; [assumption| |].
  - intros e o. rewrite O, Ee. split.
    + intros [A B]. split; [assumption|]. intros ->. tauto.
    + intros [A B]. tauto.
  - intros t. rewrite T. cbn [In]. tauto.
Qed.

Lemma clear_session_eq sid s es md : CInv s -> session_info sid s = Some (es, md) ->
  exists d' ts x tl, clear_session sid s =
     (set_tlog tl (set_clients (put sid (CSess [] None) (s_clients s))
        (set_set x (set_owned (del sid (s_owned s)) (set_dag d' s)))), ts) /\
     cleared sid (s_dag s) d' ts /\
     (forall a, get a x = rss_entry sid (mem a (getd sid [] (s_owned s))) (get a (s_set s))) /\
     (NoDup (keys (s_set s)) -> NoDup (keys x)).
Proof.
  intros I E. unfold clear_session. rewrite E.
  destruct (drop_edges_eq sid s es md I E) as [d' [ts [Eq C]]]. rewrite Eq.
  set (s1 := set_clients (put sid (CSess [] md) (s_clients s)) (set_dag d' s)).
  destruct (remove_settings_for_session_eq sid s1) as [x [Ex [Gx Nx]]]. rewrite Ex.
  rewrite (set_metadata_eq sid None _ [] md).
  2: { apply session_info_get. unfold s1; sproj. apply get_put_eq. }
  match goal with |- context [graph_changed_event ts ?o ?s'] =>
    destruct (graph_changed_eq ts o s') as [tl Et] end.
  exists d', ts, x, tl. split; [|split; [exact C|split; [exact Gx|exact Nx]]].
  rewrite Et. unfold s1; sproj. unfold set_tlog, set_clients, set_set, set_owned, set_dag; sproj.
  now rewrite put_put.
Qed.

Lemma drop_session_eq sid s es md : CInv s -> session_info sid s = Some (es, md) ->
  exists d' ts x tl, drop_session sid s =
     (set_tlog tl (set_clients (del sid (s_clients s))
        (set_set x (set_owned (del sid (s_owned s)) (set_dag d' s)))), ts) /\
     cleared sid (s_dag s) d' ts /\
     (forall a, get a x = rss_entry sid (mem a (getd sid [] (s_owned s))) (get a (s_set s))) /\
     (NoDup (keys (s_set s)) -> NoDup (keys x)).
Proof.
  intros I E. unfold drop_session. rewrite E.
  destruct (drop_edges_eq sid s es md I E) as [d' [ts [Eq C]]]. rewrite Eq.
  set (s1 := set_clients (put sid (CSess [] md) (s_clients s)) (set_dag d' s)).
  destruct (remove_settings_for_session_eq sid s1) as [x [Ex [Gx Nx]]]. rewrite Ex.
  rewrite (set_metadata_eq sid None _ [] md).
  2: { apply session_info_get. unfold s1; sproj. apply get_put_eq. }
  match goal with |- context [graph_changed_event ts ?o ?s'] =>
    destruct (graph_changed_eq ts o s') as [tl Et] end.
  exists d', ts, x, tl. split; [|split; [exact C|split; [exact Gx|exact Nx]]].
  rewrite Et. unfold s1; sproj. unfold set_tlog, set_clients, set_set, set_owned, set_dag; sproj.
  now rewrite !del_put_same.
Qed.

Lemma process_changed_eq pid us vs s : exists tl, process_changed pid us vs s = set_tlog tl s.
Proof.
  unfold process_changed. destruct (same_set us vs); [exists (s_tlog s); now destruct s|].
  eexists; reflexivity.
Qed.

(* ---- one command, client by client ---- *)

(** What a command may do to the clients and the graph: every case of [step],
    with everything the proofs need to know about it. *)
Inductive effect (s : server) : label -> server -> reply -> Prop :=
| ef_new l c s' : harmless c ->
    (l = LSession /\ c = CSess [] None \/ l = LProcess /\ c = CProc [] \/
     (exists t, l = LPublish t /\ c = CPub t) \/ (exists t, l = LSubscribe t /\ c = CSub t) \/
     (exists p t, l = LChannel p /\ c = CChan p /\ get p (s_clients s) = Some (CPub t))) ->
    s' = set_clients (put (s_next s) c (s_clients s)) (set_next (S (s_next s)) s) ->
    effect s l s' (RpId (s_next s))
| ef_nothing l r : match l with
     | LChannel _ => r = RpNone
     | LConnect f t => (r = RpCyclic /\ snd (add_edge f t None (s_dag s)) = Cyclic)
     | LSessConnect sid f t => (r = RpCyclic /\ snd (add_edge f t (Some sid) (s_dag s)) = Cyclic)
     | LSessRegister sid md => r = RpError /\ metadata_collisions sid md s <> []
     | LProcRegister pid us => r = RpError /\ conflicts pid us s <> []
     | LProcOwn pid added _ => r = RpError /\ conflicts pid added s <> []
     | LProcSettings pid a v => r = RpError /\ exists us, process_info pid s = Some us /\ ~ In a us
     | _ => False end ->
    effect s l s r
| ef_gone id c s' : get id (s_clients s) = Some c ->
    match c with CPub _ | CSub _ | CChan _ => True | _ => False end ->
    s' = set_clients (del id (s_clients s)) s ->
    effect s (LClientGone id) s' RpNone
| ef_connect f t s' d' r tl : add_edge f t None (s_dag s) = (d', r) -> r <> Cyclic ->
    s' = set_tlog tl (set_dag d' s) -> effect s (LConnect f t) s' RpComplete
| ef_disconnect f t s' d' ch tl : remove_edge f t None (s_dag s) = (d', ch) ->
    s' = set_tlog tl (set_dag d' s) -> effect s (LDisconnect f t) s' RpComplete
| ef_sconnect sid f t s' d' r tl es md : session_info sid s = Some (es, md) ->
    add_edge f t (Some sid) (s_dag s) = (d', r) -> r <> Cyclic ->
    s' = set_tlog tl (set_clients (put sid (CSess (sadd (f, t) es) md) (s_clients s)) (set_dag d' s)) ->
    effect s (LSessConnect sid f t) s' RpComplete
| ef_sdisconnect sid f t s' d' ch tl es md : session_info sid s = Some (es, md) ->
    remove_edge f t (Some sid) (s_dag s) = (d', ch) ->
    s' = set_tlog tl (set_clients (put sid (CSess (sdel (f, t) es) md) (s_clients s)) (set_dag d' s)) ->
    effect s (LSessDisconnect sid f t) s' RpComplete
| ef_register sid md es md0 s' : session_info sid s = Some (es, md0) ->
    metadata_collisions sid md s = [] ->
    s' = apply_metadata sid md (set_metadata sid (Some md) (remove_settings_for_session sid s)) ->
    effect s (LSessRegister sid md) s' RpComplete
| ef_clear sid es md d' ts x tl s' : session_info sid s = Some (es, md) ->
    cleared sid (s_dag s) d' ts ->
    (forall a, get a x = rss_entry sid (mem a (getd sid [] (s_owned s))) (get a (s_set s))) ->
    (NoDup (keys (s_set s)) -> NoDup (keys x)) ->
    s' = set_tlog tl (set_clients (put sid (CSess [] None) (s_clients s))
           (set_set x (set_owned (del sid (s_owned s)) (set_dag d' s)))) ->
    effect s (LSessClear sid) s' RpComplete
| ef_sgone sid es md d' ts x tl s' : session_info sid s = Some (es, md) ->
    cleared sid (s_dag s) d' ts ->
    (forall a, get a x = rss_entry sid (mem a (getd sid [] (s_owned s))) (get a (s_set s))) ->
    (NoDup (keys (s_set s)) -> NoDup (keys x)) ->
    s' = set_tlog tl (set_clients (del sid (s_clients s))
           (set_set x (set_owned (del sid (s_owned s)) (set_dag d' s)))) ->
    effect s (LSessGone sid) s' RpNone
| ef_pregister pid us us0 s' tl : process_info pid s = Some us0 -> conflicts pid us s = [] ->
    s' = set_tlog tl (set_clients (put pid (CProc (to_set us)) (s_clients s)) s) ->
    effect s (LProcRegister pid us) s' RpComplete
| ef_pown pid added removed us0 s' tl : process_info pid s = Some us0 -> conflicts pid added s = [] ->
    s' = set_tlog tl (set_clients (put pid (CProc (filter (fun u => negb (mem u removed))
                           (fold_left (fun acc x => sadd x acc) added us0))) (s_clients s)) s) ->
    effect s (LProcOwn pid added removed) s' RpComplete
| ef_psettings pid a v us s' msid : process_info pid s = Some us -> In a us ->
    msid = match session_owner a (s_clients s) with
           | Some sid => Some sid
           | None => match get a (s_set s) with Some st => st_sess st | None => None end
           end ->
    s' = set_slog (append (mkSev SETTINGS_UPDATED a v msid (Some pid)) (s_slog s))
           (set_set (put a (mkSt v msid (Some pid)) (s_set s)) s) ->
    effect s (LProcSettings pid a v) s' RpComplete
| ef_presponse pid req body us : process_info pid s = Some us ->
    effect s (LProcResponse pid req body) (route_response pid req body s) RpNone
| ef_pgone pid us : process_info pid s = Some us ->
    effect s (LProcGone pid) (process_gone pid s) RpNone
| ef_route u ok : effect s (LRoute u ok) (route_request u ok s) (RpId (s_next s))
| ef_tfires req : get req (s_fut s) = Some FWaiting ->
    effect s (LTimeoutFires req) (set_fut (put req FCancelled (s_fut s)) s) RpNone
| ef_tanswer req : get req (s_fut s) = Some FCancelled ->
    effect s (LTimeoutAnswer req) (answer req RespTimeout
                  (set_fut (del req (s_fut s)) (set_pend (del req (s_pend s)) s))) RpNone
| ef_answer req r : get req (s_fut s) = Some (FDone r) ->
    effect s (LAnswer req) (answer req r (set_fut (del req (s_fut s)) s)) RpNone.

Lemma step_effect s l s' r w : CInv s -> step s l = Some (s', r, w) -> effect s l s' r.
Proof.
  intros I E. destruct l; cbn [step] in E.
  - injection E as <- <- <-. apply ef_new with (c := CPub t); [exact Logic.I| |reflexivity].
    right; right; left; eauto.
  - injection E as <- <- <-. apply ef_new with (c := CSub t); [exact Logic.I| |reflexivity].
    right; right; right; left; eauto.
  - destruct (get pub (s_clients s)) as [[]|] eqn:G; injection E as <- <- <-;
      try (apply ef_nothing; reflexivity).
    apply ef_new with (c := CChan pub); [exact Logic.I| |reflexivity].
    right; right; right; right; eauto.
  - destruct (get id (s_clients s)) as [[]|] eqn:G; try discriminate; injection E as <- <- <-;
      (eapply ef_gone; [eassumption|exact Logic.I|reflexivity]).
  - rewrite connect_owner_none in E. destruct (add_edge f t None (s_dag s)) as [d' a] eqn:A.
    cbn [fst snd] in E.
    destruct a; injection E as <- <- <-.
    + eapply ef_connect; [eassumption|discriminate|reflexivity].
    + eapply ef_connect with (tl := s_tlog s); [eassumption|discriminate|].
      destruct s; reflexivity.
    + assert (d' = s_dag s) as -> by (eapply rejected_same; [apply (c_dag _ _ _ I)|eassumption]).
      replace (set_dag (s_dag s) s) with s by (destruct s; reflexivity).
      apply ef_nothing. split; [reflexivity|now rewrite A].
  - rewrite disconnect_owner_none in E. destruct (remove_edge f t None (s_dag s)) as [d' ch] eqn:A.
    cbn [fst snd] in E. injection E as <- <- <-. destruct ch.
    + eapply ef_disconnect; [eassumption|reflexivity].
    + eapply ef_disconnect with (tl := s_tlog s); [eassumption|]. destruct s; reflexivity.
  - injection E as <- <- <-. apply ef_new with (c := CSess [] None); [exact Logic.I| |reflexivity]. auto.
  - destruct (session_info sid s) as [[es md]|] eqn:Si; [|discriminate].
    rewrite (connect_owner_some f t sid s es md Si) in E.
    destruct (add_edge f t (Some sid) (s_dag s)) as [d' a] eqn:A.
    cbn [fst snd] in E.
    destruct a; injection E as <- <- <-.
    + eapply ef_sconnect; [eassumption|eassumption|discriminate|reflexivity].
    + eapply ef_sconnect with (tl := s_tlog s); [eassumption|eassumption|discriminate|].
      destruct s; reflexivity.
    + assert (d' = s_dag s) as -> by (eapply rejected_same; [apply (c_dag _ _ _ I)|eassumption]).
      replace (set_dag (s_dag s) s) with s by (destruct s; reflexivity).
      apply ef_nothing. split; [reflexivity|now rewrite A].
  - destruct (session_info sid s) as [[es md]|] eqn:Si; [|discriminate].
    rewrite (disconnect_owner_some f t sid s es md Si) in E.
    destruct (remove_edge f t (Some sid) (s_dag s)) as [d' ch] eqn:A.
    cbn [fst snd] in E. injection E as <- <- <-. destruct ch.
    + eapply ef_sdisconnect; [eassumption|eassumption|reflexivity].
    + eapply ef_sdisconnect with (tl := s_tlog s); [eassumption|eassumption|]. destruct s; reflexivity.
  - destruct (session_info sid s) as [[es md0]|] eqn:Si; [|discriminate].
    unfold register_session in E. rewrite Si in E.
    destruct (metadata_collisions sid md s) eqn:C; injection E as <- <- <-.
    + eapply ef_register; eauto.
    + apply ef_nothing. split; [reflexivity|congruence].
  - destruct (session_info sid s) as [[es md]|] eqn:Si; [|discriminate].
    destruct (clear_session_eq sid s es md I Si) as [d' [ts [x [tl [Eq [C [G N]]]]]]].
    rewrite Eq in E. injection E as <- <- <-. eapply ef_clear; eauto.
  - destruct (session_info sid s) as [[es md]|] eqn:Si; [|discriminate].
    destruct (drop_session_eq sid s es md I Si) as [d' [ts [x [tl [Eq [C [G N]]]]]]].
    rewrite Eq in E. injection E as <- <- <-. eapply ef_sgone; eauto.
  - injection E as <- <- <-. apply ef_new with (c := CProc []); [exact Logic.I| |reflexivity]. auto.
  - destruct (process_info pid s) as [us0|] eqn:Pi; [|discriminate].
    unfold register_process in E. rewrite Pi in E.
    destruct (conflicts pid us s) eqn:C.
    + destruct (process_changed_eq pid us0 (to_set us)
        (set_clients (put pid (CProc (to_set us)) (s_clients s)) s)) as [tl Et].
      rewrite Et in E. injection E as <- <- <-. eapply ef_pregister; eauto.
    + injection E as <- <- <-. apply ef_nothing. split; [reflexivity|congruence].
  - destruct (process_info pid s) as [us0|] eqn:Pi; [|discriminate].
    unfold update_ownership in E. rewrite Pi in E.
    destruct (conflicts pid added s) eqn:C.
    + match type of E with context [process_changed pid us0 ?us ?s1] =>
        destruct (process_changed_eq pid us0 us s1) as [tl Et] end.
      rewrite Et in E. injection E as <- <- <-. eapply ef_pown; eauto.
    + injection E as <- <- <-. apply ef_nothing. split; [reflexivity|congruence].
  - destruct (process_info pid s) as [us0|] eqn:Pi; [|discriminate].
    unfold settings_update in E. rewrite Pi in E.
    destruct (mem a us0) eqn:M; injection E as <- <- <-.
    + eapply ef_psettings; [eassumption|now apply mem_In|reflexivity|reflexivity].
    + apply ef_nothing. split; [reflexivity|]. exists us0. split; [assumption|now apply mem_false].
  - destruct (process_info pid s) as [us0|] eqn:Pi; [|discriminate].
    injection E as <- <- <-. eapply ef_presponse; eauto.
  - destruct (process_info pid s) as [us0|] eqn:Pi; [|discriminate].
    injection E as <- <- <-. eapply ef_pgone; eauto.
  - injection E as <- <- <-. apply ef_route.
  - destruct (get req (s_fut s)) as [[]|] eqn:G; try discriminate; injection E as <- <- <-.
    now apply ef_tfires.
  - destruct (get req (s_fut s)) as [[]|] eqn:G; try discriminate; injection E as <- <- <-.
    now apply ef_tanswer.
  - destruct (get req (s_fut s)) as [[]|] eqn:G; try discriminate; injection E as <- <- <-.
    now apply ef_answer.
Qed.

(* ---- clients, by induction ---- *)

(** The fields the client invariant reads. *)
Definition core (s : server) := (s_next s, s_dag s, s_clients s).

Lemma core_fold {A} (f : server -> A -> server) :
  (forall s a, core (f s a) = core s) -> forall l s, core (fold_left f l s) = core s.
Proof. intros H l; induction l as [|a l IH]; intros s; cbn; [reflexivity|]. now rewrite IH. Qed.

Lemma core_apply sid md s : core (apply_metadata sid md s) = core s.
Proof.
  unfold apply_metadata. cbn. apply (core_fold (apply_metadata_one sid)). reflexivity.
Qed.

Lemma core_set_result req r s : core (set_result req r s) = core s.
Proof. unfold set_result. destruct (get req (s_fut s)) as [[]|]; reflexivity. Qed.

Lemma core_process_gone pid s :
  core (process_gone pid s) = (s_next s, s_dag s, del pid (s_clients s)).
Proof.
  change (process_gone pid s) with
      (let s2 := remove_settings_for_process pid (fold_left gone_step (requests_of pid s) s) in
       let s3 := append_topology_event (mkTev PROCESS_CHANGED [] None (Some pid)) s2 in
       set_clients (del pid (s_clients s3)) s3).
  set (s1 := fold_left gone_step (requests_of pid s) s).
  assert (E1 : core s1 = core s).
  { apply core_fold. intros s0 q. unfold gone_step. destruct (get q (s_pend s0)); [|reflexivity].
    rewrite core_set_result. reflexivity. }
  assert (E2 : core (remove_settings_for_process pid s1) = core s1).
  { unfold remove_settings_for_process. apply core_fold. intros s0 a.
    destruct (get a (s_set s0)) as [st|]; [|reflexivity].
    destruct (st_sess st); [|reflexivity]. destruct (initial_settings _ _ _); reflexivity. }
  rewrite E1 in E2. unfold core in *. cbn. injection E2 as -> -> ->. reflexivity.
Qed.

Lemma core_route_response pid req body s : core (route_response pid req body s) = core s.
Proof.
  unfold route_response. destruct (get req (s_pend s)); [|reflexivity].
  destruct (eqd n pid); rewrite core_set_result; reflexivity.
Qed.

Lemma core_route_request u ok s :
  core (route_request u ok s) = (S (s_next s), s_dag s, s_clients s).
Proof.
  unfold route_request. sproj. destruct (process_owner u (s_clients s)); [|reflexivity].
  destruct ok; reflexivity.
Qed.

Lemma CInv_core s s' : core s' = core s -> CInv s -> CInv s'.
Proof. unfold core, CInv. intros [= -> -> ->]. auto. Qed.

Lemma CInv_of_core s n d cs : core s = (n, d, cs) -> CInv3 n d cs -> CInv s.
Proof. unfold core, CInv. intros E. generalize dependent (s_next s). intros m [= -> -> ->]. auto. Qed.

Lemma core_remove_session sid s : core (remove_settings_for_session sid s) = core s.
Proof.
  destruct (remove_settings_for_session_eq sid s) as [x [E _]]. rewrite E. reflexivity.
Qed.

Lemma In_to_set us u : In u (to_set us) <-> In u us.
Proof. unfold to_set. rewrite fold_sadd_In. cbn. tauto. Qed.

Lemma CInv_effect s l s' r : CInv s -> effect s l s' r -> CInv s'.
Proof.
  intros I H. destruct H as
    [l c s' Hc _ E | l r _ | id c s' G Hc E | f t s' d' r tl A N E | f t s' d' ch tl A E
    | sid f t s' d' r tl es md Si A N E | sid f t s' d' ch tl es md Si A E
    | sid md es md0 s' Si C E | sid es md d' ts x tl s' Si C G N E | sid es md d' ts x tl s' Si C G N E
    | pid us us0 s' tl Pi C E | pid added removed us0 s' tl Pi C E | pid a v us s' msid Pi Ia M E
    | pid req body us Pi | pid us Pi | u ok | req G | req G | req r G ].
  - subst s'. unfold CInv; sproj. now apply CInv_fresh.
  - assumption.
  - subst s'. unfold CInv; sproj. apply CInv_del; [assumption|]. intros e O.
    apply (c_live _ _ _ I) in O as [es [md G']]. rewrite G in G'. injection G' as ->. destruct Hc.
  - subst s'. unfold CInv; sproj. eapply CInv_dag; [exact I| |].
    + pose proof (DInv_add (s_dag s) f t None (c_dag _ _ _ I)) as D. now rewrite A in D.
    + intros e sid. pose proof (add_edge_owner (s_dag s) f t None e (Some sid) (c_dag _ _ _ I)) as O.
      rewrite A in O; cbn [fst snd] in O. rewrite O. intuition congruence.
  - subst s'. unfold CInv; sproj. eapply CInv_dag; [exact I| |].
    + pose proof (DInv_remove (s_dag s) f t None (c_dag _ _ _ I)) as D. now rewrite A in D.
    + intros e sid. pose proof (remove_edge_owner (s_dag s) f t None e (Some sid) (c_dag _ _ _ I)) as O.
      rewrite A in O; cbn [fst snd] in O. rewrite O. intuition congruence.
  - subst s'. unfold CInv; sproj. apply session_info_get in Si.
    assert (O : forall e o, owner_of d' e o <-> owner_of (s_dag s) e o \/ (e = (f, t) /\ o = Some sid)).
    { intros e o. pose proof (add_edge_owner (s_dag s) f t (Some sid) e o (c_dag _ _ _ I)) as O.
      rewrite A in O; cbn [fst snd] in O. rewrite O. tauto. }
    eapply CInv_sess; [exact I|exact Si| | | |].
    + pose proof (DInv_add (s_dag s) f t (Some sid) (c_dag _ _ _ I)) as D. now rewrite A in D.
    + intros e. rewrite In_sadd, O, (c_edges _ _ _ I sid es md Si e). intuition congruence.
    + intros e o No. rewrite O. intuition congruence.
    + intros m a q es2 md2 -> Nq Gq Ia Ib. apply Nq. eapply (c_mds _ _ _ I); eauto.
  - subst s'. unfold CInv; sproj. apply session_info_get in Si.
    assert (O : forall e o, owner_of d' e o <-> owner_of (s_dag s) e o /\ ~ (e = (f, t) /\ o = Some sid)).
    { intros e o. pose proof (remove_edge_owner (s_dag s) f t (Some sid) e o (c_dag _ _ _ I)) as O.
      rewrite A in O; cbn [fst snd] in O. exact O. }
    eapply CInv_sess; [exact I|exact Si| | | |].
    + pose proof (DInv_remove (s_dag s) f t (Some sid) (c_dag _ _ _ I)) as D. now rewrite A in D.
    + intros e. rewrite In_sdel, O, (c_edges _ _ _ I sid es md Si e). intuition congruence.
    + intros e o No. rewrite O. intuition congruence.
    + intros m a q es2 md2 -> Nq Gq Ia Ib. apply Nq. eapply (c_mds _ _ _ I); eauto.
  - subst s'. eapply CInv_core; [apply core_apply|].
    pose proof (core_remove_session sid s) as K. set (s1 := remove_settings_for_session sid s) in *.
    unfold core in K; injection K as Kn Kd Kc.
    assert (Si1 : session_info sid s1 = Some (es, md0)) by (unfold session_info; rewrite Kc; exact Si).
    rewrite (set_metadata_eq sid (Some md) s1 es md0 Si1). unfold CInv; sproj. rewrite Kn, Kd, Kc.
    apply session_info_get in Si. eapply CInv_sess; [exact I|exact Si|apply I| | |].
    + exact (c_edges _ _ _ I sid es md0 Si).
    + reflexivity.
    + intros m a q es2 md2 [= <-] Nq Gq Ia. exact (proj1 (collisions_nil sid md s (c_nodup _ _ _ I)) C q es2 md2 a Nq Gq Ia).
  - subst s'. unfold CInv; sproj. apply session_info_get in Si.
    eapply CInv_sess; [exact I|exact Si|apply C| | |].
    + intros e. rewrite (cl_owner _ _ _ _ C). split; [intros []|tauto].
    + intros e o No. rewrite (cl_owner _ _ _ _ C). tauto.
    + discriminate.
  - subst s'. unfold CInv; sproj. apply session_info_get in Si.
    rewrite <- (del_put_same sid (CSess [] None)). apply CInv_del.
    + eapply CInv_sess; [exact I|exact Si|apply C| | |].
      * intros e. rewrite (cl_owner _ _ _ _ C). split; [intros []|tauto].
      * intros e o No. rewrite (cl_owner _ _ _ _ C). tauto.
      * discriminate.
    + intros e. rewrite (cl_owner _ _ _ _ C). tauto.
  - subst s'. unfold CInv; sproj. apply process_info_get in Pi.
    eapply CInv_proc; [exact I|exact Pi|]. intros q vs u Nq Gq Iu. apply (proj1 (In_to_set us u)) in Iu.
    exact (proj1 (conflicts_nil pid us s (c_nodup _ _ _ I) (c_units _ _ _ I)) C q vs u Nq Gq Iu).
  - subst s'. unfold CInv; sproj. apply process_info_get in Pi.
    eapply CInv_proc; [exact I|exact Pi|]. intros q vs u Nq Gq Iu.
    apply filter_In in Iu as [Iu _]. apply fold_sadd_In in Iu as [Iu|Iu].
    + intros Iv. apply Nq. eapply (c_units _ _ _ I); eauto.
    + exact (proj1 (conflicts_nil pid added s (c_nodup _ _ _ I) (c_units _ _ _ I)) C q vs u Nq Gq Iu).
  - subst s'. exact I.
  - eapply CInv_core; [apply core_route_response|assumption].
  - eapply CInv_of_core; [apply core_process_gone|]. apply CInv_del; [assumption|]. intros e O.
    apply process_info_get in Pi. apply (c_live _ _ _ I) in O as [es [md G']]. congruence.
  - eapply CInv_of_core; [apply core_route_request|]. now apply CInv_more.
  - exact I.
  - exact I.
  - exact I.
Qed.

Lemma CInv_run sl tl s h : run sl tl s h -> CInv s.
Proof.
  induction 1 as [|s h l s' r w R IH E]; [apply CInv_new|].
  eapply CInv_effect; [exact IH|]. eapply step_effect; eauto.
Qed.

(* ---- who owns an edge ---- *)

Lemma dag_core s s' : core s' = core s -> s_dag s' = s_dag s.
Proof. unfold core. now intros [= _ -> _]. Qed.

Lemma dag_register sid md s es md0 : session_info sid s = Some (es, md0) ->
  core (apply_metadata sid md (set_metadata sid (Some md) (remove_settings_for_session sid s))) =
  (s_next s, s_dag s, put sid (CSess es (Some md)) (s_clients s)).
Proof.
  intros Si. rewrite core_apply.
  pose proof (core_remove_session sid s) as K. set (s1 := remove_settings_for_session sid s) in *.
  unfold core in K; injection K as Kn Kd Kc.
  assert (Si1 : session_info sid s1 = Some (es, md0)) by (unfold session_info; rewrite Kc; exact Si).
  rewrite (set_metadata_eq sid (Some md) s1 es md0 Si1). unfold core; sproj. now rewrite Kn, Kd, Kc.
Qed.

Ltac dag_same :=
  let f := fresh "f" in let t := fresh "t" in let o := fresh "o" in
  let X := fresh "X" in let Y := fresh "Y" in
  intros f t o; split;
  [ intros X; right; split; [exact X|destruct o; cbn; intuition discriminate]
  | intros [Y|[X _]]; [exfalso; destruct o; cbn in Y; intuition congruence|exact X] ].

Ltac dag_minus o :=
  let P := fresh "P" in let Q := fresh "Q" in let X := fresh "X" in let Y := fresh "Y" in
  destruct o as [q|]; cbn; split;
  [ intros [P Q]; right; split; [exact P|intros X; apply Q; intuition congruence]
  | intros [X|[P Q]]; [discriminate X|split; [exact P|]]; intros [X Y]; try congruence; apply Q;
    first [congruence|left; congruence]
  | intros [P Q]; right; split; [exact P|intros X; apply Q; intuition congruence]
  | intros [X|[P Q]]; [discriminate X|split; [exact P|]]; intros [X Y]; try congruence; apply Q;
    first [congruence|left; congruence] ].

Lemma owner_effect s l s' r : CInv s -> effect s l s' r -> forall f t o,
  owner_of (s_dag s') (f, t) o <->
  connects f t o (l, r) \/ (owner_of (s_dag s) (f, t) o /\ ~ takes_back f t o (l, r)).
Proof.
  intros I H. destruct H as
    [l c s' Hc W E | l r W | id c s' G Hc E | f t s' d' r tl A N E | f t s' d' ch tl A E
    | sid f t s' d' r tl es md Si A N E | sid f t s' d' ch tl es md Si A E
    | sid md es md0 s' Si C E | sid es md d' ts x tl s' Si C G N E | sid es md d' ts x tl s' Si C G N E
    | pid us us0 s' tl Pi C E | pid added removed us0 s' tl Pi C E | pid a v us s' msid Pi Ia M E
    | pid req body us Pi | pid us Pi | u ok | req G | req G | req r G ].
  - subst s'. change (s_dag (set_clients _ _)) with (s_dag s).
    destruct W as [[-> _]|[[-> _]|[[t [-> _]]|[[t [-> _]]|[p [t [-> _]]]]]]]; dag_same.
  - destruct l; try destruct W; subst; dag_same.
  - subst s'. change (s_dag (set_clients _ _)) with (s_dag s). dag_same.
  - subst s'. change (s_dag (set_tlog _ _)) with d'. intros g u o.
    pose proof (add_edge_owner (s_dag s) f t None (g, u) o (c_dag _ _ _ I)) as O.
    rewrite A in O; cbn [fst snd] in O. rewrite O. destruct o as [q|]; cbn; intuition congruence.
  - subst s'. change (s_dag (set_tlog _ _)) with d'. intros g u o.
    pose proof (remove_edge_owner (s_dag s) f t None (g, u) o (c_dag _ _ _ I)) as O.
    rewrite A in O; cbn [fst snd] in O. rewrite O. dag_minus o.
  - subst s'. change (s_dag (set_tlog _ _)) with d'. intros g u o.
    pose proof (add_edge_owner (s_dag s) f t (Some sid) (g, u) o (c_dag _ _ _ I)) as O.
    rewrite A in O; cbn [fst snd] in O. rewrite O. destruct o as [q|]; cbn; intuition congruence.
  - subst s'. change (s_dag (set_tlog _ _)) with d'. intros g u o.
    pose proof (remove_edge_owner (s_dag s) f t (Some sid) (g, u) o (c_dag _ _ _ I)) as O.
    rewrite A in O; cbn [fst snd] in O. rewrite O. dag_minus o.
  - subst s'. pose proof (dag_register sid md s es md0 Si) as K. unfold core in K.
    apply (f_equal (fun p => snd (fst p))) in K. cbn [fst snd] in K. rewrite K. dag_same.
  - subst s'. change (s_dag (set_tlog _ _)) with d'. intros g u o. rewrite (cl_owner _ _ _ _ C).
    destruct o as [q|]; cbn; intuition congruence.
  - subst s'. change (s_dag (set_tlog _ _)) with d'. intros g u o. rewrite (cl_owner _ _ _ _ C).
    destruct o as [q|]; cbn; intuition congruence.
  - subst s'. change (s_dag (set_tlog _ _)) with (s_dag s). dag_same.
  - subst s'. change (s_dag (set_tlog _ _)) with (s_dag s). dag_same.
  - subst s'. change (s_dag (set_slog _ _)) with (s_dag s). dag_same.
  - rewrite (dag_core _ _ (core_route_response pid req body s)). dag_same.
  - pose proof (core_process_gone pid s) as K. unfold core in K.
    apply (f_equal (fun p => snd (fst p))) in K. cbn [fst snd] in K. rewrite K. dag_same.
  - pose proof (core_route_request u ok s) as K. unfold core in K.
    apply (f_equal (fun p => snd (fst p))) in K. cbn [fst snd] in K. rewrite K. dag_same.
  - change (s_dag (set_fut _ _)) with (s_dag s). dag_same.
  - change (s_dag (answer _ _ _)) with (s_dag s). dag_same.
  - change (s_dag (answer _ _ _)) with (s_dag s). dag_same.
Qed.

Lemma owner_history sl tl s h : run sl tl s h -> forall f t o,
  listed_owner s f t o <-> holds_edge h f t o.
Proof.
  induction 1 as [|s h l s' r w R IH E]; intros f t o.
  - split; [intros []|intros H; now apply since_nil in H].
  - pose proof (CInv_run _ _ _ _ R) as I. pose proof (step_effect s l s' r w I E) as Ef.
    unfold holds_edge. rewrite since_snoc.
    change (listed_owner s' f t o) with (owner_of (s_dag s') (f, t) o).
    rewrite (owner_effect s l s' r I Ef f t o).
    change (owner_of (s_dag s) (f, t) o) with (listed_owner s f t o). rewrite IH. reflexivity.
Qed.

(* ---- settings ---- *)

Definition has_md (cs : list (nat * client)) (sid : nat) (md : metadata) : Prop :=
  exists es, get sid cs = Some (CSess es (Some md)).
Definition describes_in (cs : list (nat * client)) (sid : nat) (a : addr) : Prop :=
  exists md, has_md cs sid md /\ In a (keys md).

Record SInv3 (cs : list (nat * client)) (set : list (addr * sstate)) (owned : list (nat * list addr))
  (h : hist) : Prop := {
  si_nodup : NoDup (keys set);
  si_reg : forall sid md, has_md cs sid md <-> registered h sid md;
  si_rep : forall a p v, (exists ss, get a set = Some (mkSt v ss (Some p))) <-> reported h a p v;
  si_own : forall sid a, In a (getd sid [] owned) <-> describes_in cs sid a;
  si_sess : forall sid a, describes_in cs sid a <->
              exists st, get a set = Some st /\ st_sess st = Some sid;
  si_init : forall a st, get a set = Some st -> st_proc st = None ->
              exists sid md c, st_sess st = Some sid /\ has_md cs sid md /\
                get a md = Some c /\ cm_init c = st_value st
}.
Definition SInv (s : server) (h : hist) : Prop := SInv3 (s_clients s) (s_set s) (s_owned s) h.

Lemma SInv_new sl tl : SInv (new_server sl tl) [].
Proof.
  constructor; cbn; try discriminate.
  - constructor.
  - intros sid md; split; [intros [es G]; discriminate|intros H; now apply since_nil in H].
  - intros a p v; split; [intros [ss G]; discriminate|intros H; now apply since_nil in H].
  - intros sid a; split; [intros []|intros [md [[es G] _]]; discriminate].
  - intros sid a; split; [intros [md [[es G] _]]; discriminate|intros [st [G _]]; discriminate].
Qed.

Lemma reg_other h l r q m :
  match l with LSessRegister _ _ => r <> RpComplete | LSessClear _ | LSessGone _ => False | _ => True end ->
  (registered (h ++ [(l, r)]) q m <-> registered h q m).
Proof.
  intros W. apply since_other.
  - intros [= <- <-]. now apply W.
  - intros [[md [= -> ->]]|[E|E]]; cbn in *; subst; tauto.
Qed.

Lemma rep_other h l r a p v :
  match l with LProcSettings _ _ _ => r <> RpComplete | LProcGone _ => False | _ => True end ->
  (reported (h ++ [(l, r)]) a p v <-> reported h a p v).
Proof.
  intros W. apply since_other.
  - intros [= <- <-]. now apply W.
  - intros [[q [w [= -> ->]]]|E]; cbn in *; subst; tauto.
Qed.

Lemma SInv_frame cs set owned h cs' l r : SInv3 cs set owned h ->
  (forall sid md, has_md cs' sid md <-> has_md cs sid md) ->
  match l with LSessRegister _ _ => r <> RpComplete | LSessClear _ | LSessGone _ => False | _ => True end ->
  match l with LProcSettings _ _ _ => r <> RpComplete | LProcGone _ => False | _ => True end ->
  SInv3 cs' set owned (h ++ [(l, r)]).
Proof.
  intros [A B C D E F] M W1 W2.
  assert (Ds : forall sid a, describes_in cs' sid a <-> describes_in cs sid a).
  { intros sid a; split; intros [md [H I]]; exists md; split; auto; now apply M. }
  constructor; [assumption| | | | |].
  - intros sid md. rewrite M, B. symmetry. now apply reg_other.
  - intros a p v. rewrite C. symmetry. now apply rep_other.
  - intros sid a. now rewrite Ds.
  - intros sid a. now rewrite Ds.
  - intros a st G P. destruct (F a st G P) as [sid [md [c [X [Y Z]]]]]. exists sid, md, c.
    split; [assumption|]. split; [now apply M|assumption].
Qed.

(** A session's settings are taken away. *)
Lemma SInv_drop cs set owned h cs' x sid h' : SInv3 cs set owned h ->
  (forall q md, has_md cs' q md <-> q <> sid /\ has_md cs q md) ->
  (forall a, get a x = rss_entry sid (mem a (getd sid [] owned)) (get a set)) ->
  NoDup (keys x) ->
  (forall q m, registered h' q m <-> q <> sid /\ registered h q m) ->
  (forall a p v, reported h' a p v <-> reported h a p v) ->
  SInv3 cs' x (del sid owned) h'.
Proof.
  intros I M Gx Nx Rg Rp.
  assert (Gx' : forall a, get a x = match get a set with
             | Some st => if eqd (st_sess st) (Some sid) then without_session sid st else Some st
             | None => None end).
  { intros a. rewrite Gx. destruct (get a set) as [st|] eqn:G; [|reflexivity]. cbn [rss_entry].
    destruct (eqd (st_sess st) (Some sid)) eqn:E; [|now rewrite andb_false_r].
    apply (proj1 (eqd_true _ _)) in E.
    assert (J : mem a (getd sid [] owned) = true).
    { apply mem_In. apply (si_own _ _ _ _ I). apply (si_sess _ _ _ _ I). eauto. }
    now rewrite J. }
  assert (Ds : forall q a, describes_in cs' q a <-> q <> sid /\ describes_in cs q a).
  { intros q a; split.
    - intros [md [H J]]. apply M in H as [N H]. split; [assumption|]. exists md; auto.
    - intros [N [md [H J]]]. exists md. split; [apply M; auto|assumption]. }
  constructor.
  - assumption.
  - intros q m. rewrite M, Rg, (si_reg _ _ _ _ I). reflexivity.
  - intros a p v. rewrite Rp, <- (si_rep _ _ _ _ I a p v). rewrite Gx'. split.
    + intros [ss G]. destruct (get a set) as [st|] eqn:Ga; [|discriminate].
      destruct (eqd (st_sess st) (Some sid)).
      * unfold without_session in G. destruct (st_proc st) eqn:P; [|discriminate].
        injection G as <- <- ->. exists (st_sess st). destruct st; cbn in *. now subst.
      * injection G as ->. eauto.
    + intros [ss G]. rewrite G. cbn [st_sess]. destruct (eqd ss (Some sid)); [|eauto].
      unfold without_session; cbn. eauto.
  - intros q a. rewrite getd_del, Ds. destruct (dec q sid) as [->|N].
    + cbn. tauto.
    + rewrite (si_own _ _ _ _ I). tauto.
  - intros q a. rewrite Ds, (si_sess _ _ _ _ I q a), Gx'. split.
    + intros [N [st [G E]]]. rewrite G. rewrite eqd_neq by congruence. eauto.
    + intros [st [G E]]. destruct (get a set) as [st0|]; [|discriminate].
      destruct (eqd (st_sess st0) (Some sid)) eqn:Eq.
      * unfold without_session in G. destruct (st_proc st0); [|discriminate].
        injection G as <-. discriminate.
      * injection G as ->. apply (proj1 (eqd_false _ _)) in Eq. split; [congruence|eauto].
  - intros a st G P. rewrite Gx' in G. destruct (get a set) as [st0|] eqn:G0; [|discriminate].
    destruct (eqd (st_sess st0) (Some sid)) eqn:Eq.
    + unfold without_session in G. destruct (st_proc st0) eqn:P0; [|discriminate].
      injection G as <-. cbn in P. congruence.
    + injection G as ->. apply (proj1 (eqd_false _ _)) in Eq.
      destruct (si_init _ _ _ _ I a st G0 P) as [q [md [c [X [Y Z]]]]].
      exists q, md, c. split; [assumption|]. split; [apply M; split; [congruence|assumption]|assumption].
Qed.

(** A session with no metadata registers some. *)
Lemma SInv_apply cs set owned h cs' x os sid md h' : SInv3 cs set owned h ->
  keyed md ->
  (forall m, ~ has_md cs sid m) ->
  (forall a q, In a (keys md) -> ~ describes_in cs q a) ->
  (forall q m, has_md cs' q m <-> (q = sid /\ m = md) \/ has_md cs q m) ->
  (forall a, get a x = match get a md with
                       | Some c => Some (with_session sid c (get a set))
                       | None => get a set end) ->
  NoDup (keys x) ->
  (forall a, In a os <-> In a (keys md)) ->
  (forall q m, registered h' q m <-> (q = sid /\ m = md) \/ registered h q m) ->
  (forall a p v, reported h' a p v <-> reported h a p v) ->
  SInv3 cs' x (put sid os owned) h'.
Proof.
  intros I [KN KA] No Fr M Gx Nx Os Rg Rp.
  assert (Ds : forall q a, describes_in cs' q a <-> (q = sid /\ In a (keys md)) \/ describes_in cs q a).
  { intros q a; split.
    - intros [m [H J]]. apply M in H as [[-> ->]|H]; [now left|]. right; exists m; auto.
    - intros [[-> J]|[m [H J]]].
      + exists md. split; [apply M; auto|assumption].
      + exists m. split; [apply M; auto|assumption]. }
  assert (ws_proc : forall c o p v, (exists ss, Some (with_session sid c o) = Some (mkSt v ss (Some p))) <->
             exists ss, o = Some (mkSt v ss (Some p))).
  { intros c o p v. unfold with_session. split.
    - intros [ss E]. destruct o as [[v0 ss0 [p0|]]|]; cbn in E; try discriminate.
      injection E as <- <- <-. eauto.
    - intros [ss ->]. cbn. eauto. }
  assert (ws_sess : forall c o, st_sess (with_session sid c o) = Some sid).
  { intros c o. unfold with_session. destruct o as [[v0 ss0 [p0|]]|]; reflexivity. }
  constructor.
  - assumption.
  - intros q m. rewrite M, Rg, (si_reg _ _ _ _ I). reflexivity.
  - intros a p v. rewrite Rp, <- (si_rep _ _ _ _ I a p v), Gx.
    destruct (get a md); [apply ws_proc|reflexivity].
  - intros q a. rewrite getd_put, Ds. destruct (dec q sid) as [->|N].
    + rewrite Os. split; [auto|]. intros [[_ J]|[m [H _]]]; [assumption|]. now apply No in H.
    + rewrite (si_own _ _ _ _ I). tauto.
  - intros q a. rewrite Ds, Gx. destruct (get a md) as [c|] eqn:G.
    + assert (J : In a (keys md)) by (eapply get_Some_key; eauto). split.
      * intros [[-> _]|D]; [|exfalso; now apply (Fr a q)]. eexists; split; [reflexivity|].
        apply ws_sess.
      * intros [st [[= <-] E]]. rewrite ws_sess in E. injection E as <-. now left.
    + apply get_None in G. rewrite (si_sess _ _ _ _ I q a). tauto.
  - intros a st G P. rewrite Gx in G. destruct (get a md) as [c|] eqn:Gm.
    + injection G as <-. exists sid, md, c. split; [apply ws_sess|]. split; [apply M; now left|].
      split; [assumption|]. unfold with_session in *. destruct (get a set) as [[v0 ss0 [p0|]]|]; cbn in *;
        [discriminate|reflexivity|reflexivity].
    + destruct (si_init _ _ _ _ I a st G P) as [q [m [c [X [Y Z]]]]]. exists q, m, c.
      split; [assumption|]. split; [apply M; now right|assumption].
Qed.

Lemma has_md_put cs sid es md q m :
  has_md (put sid (CSess es (Some md)) cs) q m <-> (q = sid /\ m = md) \/ (q <> sid /\ has_md cs q m).
Proof.
  unfold has_md. rewrite get_put. destruct (dec q sid) as [->|N].
  - split; [intros [es' [= _ ->]]; now left|]. intros [[_ ->]|[N _]]; [eauto|congruence].
  - split; [auto|]. intros [[E _]|[_ H]]; [congruence|assumption].
Qed.

Lemma has_md_put_none cs sid es q m :
  has_md (put sid (CSess es None) cs) q m <-> q <> sid /\ has_md cs q m.
Proof.
  unfold has_md. rewrite get_put. destruct (dec q sid) as [->|N].
  - split; [intros [es' [=]]|tauto].
  - tauto.
Qed.

Lemma has_md_put_other cs id c q m : (forall es md, c <> CSess es (Some md)) ->
  (has_md (put id c cs) q m <-> q <> id /\ has_md cs q m).
Proof.
  intros N. unfold has_md. rewrite get_put. destruct (dec q id) as [->|Nq].
  - split; [intros [es E]; injection E as ->; now destruct (N es m)|tauto].
  - tauto.
Qed.

Lemma has_md_del cs id q m : has_md (del id cs) q m <-> q <> id /\ has_md cs q m.
Proof.
  unfold has_md. rewrite get_del. destruct (dec q id) as [->|Nq].
  - split; [intros [es E]; discriminate|tauto].
  - tauto.
Qed.

Lemma has_md_keep cs sid es es' md q m : get sid cs = Some (CSess es md) ->
  (has_md (put sid (CSess es' md) cs) q m <-> has_md cs q m).
Proof.
  intros G. unfold has_md. rewrite get_put. destruct (dec q sid) as [->|Nq]; [|reflexivity].
  rewrite G. split; intros [e E]; injection E as _ ->; eauto.
Qed.

Lemma no_md cs id c : get id cs = Some c -> (forall es md, c <> CSess es (Some md)) ->
  forall q m, has_md cs q m -> q <> id.
Proof. intros G N q m [es E] ->. rewrite G in E. injection E as ->. now apply (N es m). Qed.

Definition settings_part (s : server) := (s_clients s, s_set s, s_owned s, s_slog s).

Lemma sp_set_result req r s : settings_part (set_result req r s) = settings_part s.
Proof. unfold set_result. destruct (get req (s_fut s)) as [[]|]; reflexivity. Qed.

Lemma sp_route_response pid req body s : settings_part (route_response pid req body s) = settings_part s.
Proof.
  unfold route_response. destruct (get req (s_pend s)); [|reflexivity].
  destruct (eqd n pid); rewrite sp_set_result; reflexivity.
Qed.

Lemma sp_route_request u ok s : settings_part (route_request u ok s) = settings_part s.
Proof.
  unfold route_request. sproj. destruct (process_owner u (s_clients s)); [|reflexivity].
  destruct ok; reflexivity.
Qed.

Lemma SInv_part s s' h : settings_part s' = settings_part s -> SInv s h -> SInv s' h.
Proof.
  unfold settings_part, SInv. intros E.
  assert (E1 : s_clients s' = s_clients s) by (apply (f_equal (fun p => fst (fst (fst p)))) in E; exact E).
  assert (E2 : s_set s' = s_set s) by (apply (f_equal (fun p => snd (fst (fst p)))) in E; exact E).
  assert (E3 : s_owned s' = s_owned s) by (apply (f_equal (fun p => snd (fst p))) in E; exact E).
  rewrite E1, E2, E3. auto.
Qed.

Lemma describes_unique cs n d : CInv3 n d cs -> forall a p q,
  describes_in cs p a -> describes_in cs q a -> p = q.
Proof.
  intros I a p q [md [[es G] J]] [md' [[es' G'] J']]. eapply (c_mds _ _ _ I); eauto.
Qed.

Lemma session_owner_spec s : CInv s -> forall a sid,
  session_owner a (s_clients s) = Some sid <-> describes_in (s_clients s) sid a.
Proof.
  intros I a sid. split.
  - intros E. apply session_owner_Some in E as [es [md [J K]]]. exists md. split; [|assumption].
    exists es. apply In_get; [apply I|assumption].
  - intros D. destruct (session_owner a (s_clients s)) as [o|] eqn:E.
    + f_equal. apply session_owner_Some in E as [es [md [J K]]].
      eapply (describes_unique _ _ _ I a); [|exact D]. exists md. split; [|assumption].
      exists es. apply In_get; [apply I|assumption].
    + exfalso. destruct D as [md [[es G] K]]. apply get_In in G.
      now apply (session_owner_None a _ E sid es md).
Qed.

Lemma SInv_effect s h l s' r : CInv s -> SInv s h ->
  (forall sid md, l = LSessRegister sid md -> keyed md) ->
  NoDup (keys (s_pend s)) ->
  effect s l s' r -> SInv s' (h ++ [(l, r)]).
Proof.
  intros I SI Ky NP H. destruct H as
    [l c s' Hc W E | l r W | id c s' G Hc E | f t s' d' r tl A N E | f t s' d' ch tl A E
    | sid f t s' d' r tl es md Si A N E | sid f t s' d' ch tl es md Si A E
    | sid md es md0 s' Si C E | sid es md d' ts x tl s' Si C G N E | sid es md d' ts x tl s' Si C G N E
    | pid us us0 s' tl Pi C E | pid added removed us0 s' tl Pi C E | pid a v us s' msid Pi Ia M E
    | pid req body us Pi | pid us Pi | u ok | req G | req G | req r G ].
  - subst s'. unfold SInv; sproj.
    assert (Fr : get (s_next s) (s_clients s) = None).
    { apply get_None. intros K. apply (c_ids _ _ _ I) in K. lia. }
    eapply SInv_frame; [exact SI| | |].
    + intros q m. rewrite has_md_put_other.
      * split; [tauto|]. intros K. split; [|assumption]. intros ->. destruct K as [es K]. congruence.
      * intros es md ->. destruct es; destruct Hc.
    + destruct W as [[-> _]|[[-> _]|[[t [-> _]]|[[t [-> _]]|[p [t [-> _]]]]]]]; exact Logic.I.
    + destruct W as [[-> _]|[[-> _]|[[t [-> _]]|[[t [-> _]]|[p [t [-> _]]]]]]]; exact Logic.I.
  - unfold SInv. eapply SInv_frame; [exact SI|reflexivity| |].
    + destruct l; try exact Logic.I; try destruct W; subst; discriminate.
    + destruct l; try exact Logic.I; try destruct W; subst; discriminate.
  - subst s'. unfold SInv; sproj. eapply SInv_frame; [exact SI| |exact Logic.I|exact Logic.I].
    intros q m. rewrite has_md_del. split; [tauto|]. intros K. split; [|assumption].
    eapply no_md; eauto. intros es md ->. destruct Hc.
  - subst s'. unfold SInv; sproj. eapply SInv_frame; [exact SI|reflexivity|exact Logic.I|exact Logic.I].
  - subst s'. unfold SInv; sproj. eapply SInv_frame; [exact SI|reflexivity|exact Logic.I|exact Logic.I].
  - subst s'. unfold SInv; sproj. eapply SInv_frame; [exact SI| |exact Logic.I|exact Logic.I].
    intros q m. eapply has_md_keep. apply session_info_get; eauto.
  - subst s'. unfold SInv; sproj. eapply SInv_frame; [exact SI| |exact Logic.I|exact Logic.I].
    intros q m. eapply has_md_keep. apply session_info_get; eauto.
  - (* register *)
    pose proof (Ky sid md eq_refl) as Kmd. clear Ky.
    destruct (remove_settings_for_session_eq sid s) as [x [Ex [Gx Nx]]]. rewrite Ex in E.
    assert (Si1 : session_info sid (set_set x (set_owned (del sid (s_owned s)) s)) = Some (es, md0))
      by exact Si.
    rewrite (set_metadata_eq sid (Some md) _ es md0 Si1) in E.
    destruct (apply_metadata_eq sid md (set_clients (put sid (CSess es (Some md))
                (s_clients (set_set x (set_owned (del sid (s_owned s)) s))))
                (set_set x (set_owned (del sid (s_owned s)) s))) (proj1 Kmd) (proj2 Kmd))
      as [y [os [Ey [Gy [Ny Os]]]]].
    rewrite Ey in E. subst s'. unfold SInv; sproj.
    assert (Sd : SInv3 (put sid (CSess es None) (s_clients s)) x (del sid (s_owned s))
                   (h ++ [(LSessClear sid, RpNone)])).
    { eapply SInv_drop; [exact SI| |exact Gx|apply Nx, SI| |].
      - intros q m. apply has_md_put_none.
      - intros q m. unfold registered. rewrite since_snoc. unfold ends_registration; cbn.
        split.
        + intros [K|[K L]]; [discriminate|]. split; [|assumption]. intros ->. apply L; auto.
        + intros [N K]. right; split; [assumption|].
          intros [[m' K']|[K'|K']]; congruence.
      - intros a p v. now apply rep_other. }
    eapply SInv_apply; [exact Sd|exact Kmd| | | |exact Gy| |exact Os| |].
    + intros m. rewrite has_md_put_none. tauto.
    + intros a q Ia [m [H J]]. apply has_md_put_none in H as [Nq [es' G']].
      now apply (proj1 (collisions_nil sid md s (c_nodup _ _ _ I)) C q es' m a Nq G' Ia).
    + intros q m. rewrite has_md_put, has_md_put_none. reflexivity.
    + apply Ny. sproj. apply Nx, SI.
    + intros q m. unfold registered. rewrite !since_snoc. unfold ends_registration; cbn. split.
      * intros [K|[K L]].
        -- injection K as -> ->. now left.
        -- right; right. split; [assumption|]. intros [[m' K']|[K'|K']]; try congruence.
           injection K' as ->. apply L. left; eauto.
      * intros [[-> ->]|[K|[K L]]]; [now left|discriminate|]. right. split; [assumption|].
        intros [[m' K']|[K'|K']]; try congruence. injection K' as -> _. apply L; auto.
    + intros a p v. rewrite !rep_other by exact Logic.I. reflexivity.
  - (* clear *)
    subst s'. unfold SInv; sproj. eapply SInv_drop; [exact SI| |exact G|apply N, SI| |].
    + intros q m. apply has_md_put_none.
    + intros q m. unfold registered. rewrite since_snoc. unfold ends_registration; cbn. split.
      * intros [K|[K L]]; [discriminate|]. split; [|assumption]. intros ->. apply L; auto.
      * intros [Nq K]. right; split; [assumption|]. intros [[m' K']|[K'|K']]; congruence.
    + intros a p v. now apply rep_other.
  - (* gone *)
    subst s'. unfold SInv; sproj. eapply SInv_drop; [exact SI| |exact G|apply N, SI| |].
    + intros q m. apply has_md_del.
    + intros q m. unfold registered. rewrite since_snoc. unfold ends_registration; cbn. split.
      * intros [K|[K L]]; [discriminate|]. split; [|assumption]. intros ->. apply L; auto.
      * intros [Nq K]. right; split; [assumption|]. intros [[m' K']|[K'|K']]; congruence.
    + intros a p v. now apply rep_other.
  - subst s'. unfold SInv; sproj. eapply SInv_frame; [exact SI| |exact Logic.I|exact Logic.I].
    apply process_info_get in Pi. intros q m. rewrite has_md_put_other by discriminate.
    split; [tauto|]. intros K. split; [|assumption]. eapply no_md; eauto. discriminate.
  - subst s'. unfold SInv; sproj. eapply SInv_frame; [exact SI| |exact Logic.I|exact Logic.I].
    apply process_info_get in Pi. intros q m. rewrite has_md_put_other by discriminate.
    split; [tauto|]. intros K. split; [|assumption]. eapply no_md; eauto. discriminate.
  - (* settings *)
    assert (Mq : forall q, msid = Some q <-> describes_in (s_clients s) q a).
    { intros q. rewrite M. destruct (session_owner a (s_clients s)) as [o|] eqn:So.
      - rewrite <- (session_owner_spec s I). rewrite So. reflexivity.
      - destruct (get a (s_set s)) as [st|] eqn:Ga.
        + rewrite (si_sess _ _ _ _ SI q a), Ga. split; [eauto|]. intros [st' [[= <-] K]]; assumption.
        + rewrite (si_sess _ _ _ _ SI q a), Ga. split; [discriminate|]. intros [st' [K _]]; discriminate. }
    clear M. subst s'. unfold SInv; sproj. constructor.
    + apply NoDup_keys_put, SI.
    + intros q m. rewrite (si_reg _ _ _ _ SI). symmetry. now apply reg_other.
    + intros b p w. unfold reported. rewrite since_snoc. rewrite get_put.
      destruct (dec b a) as [->|Nb].
      * split.
        -- intros [ss [= <- _ <-]]. now left.
        -- intros [[= <- <-]|[_ K]]; [eauto|]. exfalso; apply K. left; eauto.
      * rewrite (si_rep _ _ _ _ SI b p w). unfold reported. split.
        -- intros K. right. split; [assumption|].
           intros [[q [w' K']]|K']; cbn in *; congruence.
        -- intros [[= <- <- <-]|[K _]]; [congruence|assumption].
    + apply SI.
    + intros q b. rewrite get_put. destruct (dec b a) as [->|Nb]; [|apply SI].
      rewrite <- Mq. split; [intros ->; eauto|]. intros [st [[= <-] K]]. exact K.
    + intros b st G P. rewrite get_put in G. destruct (dec b a) as [->|Nb].
      * injection G as <-. discriminate.
      * now apply (si_init _ _ _ _ SI b).
  - eapply SInv_part; [apply sp_route_response|]. unfold SInv.
    eapply SInv_frame; [exact SI|reflexivity|exact Logic.I|exact Logic.I].
  - (* process gone *)
    destruct (process_gone_eq pid s (si_nodup _ _ _ _ SI) NP)
      as [x [y [z [E [_ [_ [_ [_ [_ [Gz Nz]]]]]]]]]].
    rewrite E. unfold SInv; sproj. apply process_info_get in Pi.
    assert (Md : forall q m, has_md (del pid (s_clients s)) q m <-> has_md (s_clients s) q m).
    { intros q m. rewrite has_md_del. split; [tauto|]. intros K. split; [|assumption].
      eapply no_md; eauto. discriminate. }
    assert (Ds : forall q a, describes_in (del pid (s_clients s)) q a <-> describes_in (s_clients s) q a).
    { intros q a; split; intros [m [K J]]; exists m; split; auto; now apply Md. }
    assert (Wp : forall a st, get a (s_set s) = Some st -> st_proc st = Some pid ->
        match st_sess st with
        | Some q => exists m c, has_md (s_clients s) q m /\ get a m = Some c /\
                      without_process s a st = Some (mkSt (cm_init c) (Some q) None)
        | None => without_process s a st = None
        end).
    { intros a st Ga P. unfold without_process. destruct (st_sess st) as [q|] eqn:Ss; [|reflexivity].
      assert (D : describes_in (s_clients s) q a) by (apply (si_sess _ _ _ _ SI); eauto).
      destruct D as [m [[es K] J]]. apply key_get in J as [c Gc]. exists m, c.
      split; [exists es; assumption|]. split; [assumption|].
      unfold initial_settings, session_info. rewrite K, Gc. reflexivity. }
    constructor.
    + assumption.
    + intros q m. rewrite Md, (si_reg _ _ _ _ SI). symmetry. now apply reg_other.
    + intros a p v. unfold reported. rewrite since_snoc, Gz.
      transitivity (reported h a p v /\ p <> pid).
      * rewrite <- (si_rep _ _ _ _ SI a p v). destruct (get a (s_set s)) as [st|] eqn:Ga.
        -- destruct (eqd (st_proc st) (Some pid)) eqn:P.
           ++ apply (proj1 (eqd_true _ _)) in P. specialize (Wp a st Ga P).
              destruct (st_sess st).
              ** destruct Wp as [m [c [_ [_ Wp]]]]. rewrite Wp. split; [intros [ss [=]]|].
                 intros [[ss [= ->]] K]. cbn in P. congruence.
              ** rewrite Wp. split; [intros [ss [=]]|].
                 intros [[ss [= ->]] K]. cbn in P. congruence.
           ++ apply (proj1 (eqd_false _ _)) in P. split.
              ** intros [ss [= ->]]. split; [eauto|]. cbn in P. congruence.
              ** intros [K _]. exact K.
        -- split; [intros [ss [=]]|intros [[ss [=]] _]].
      * unfold reported, ends_report; cbn. split.
        -- intros [K N]. right; split; [assumption|]. intros [[q [w K']]|K']; congruence.
        -- intros [K|[K N]]; [discriminate|]. split; [assumption|]. intros ->. apply N; auto.
    + intros q a. rewrite Ds. apply SI.
    + intros q a. rewrite Ds, (si_sess _ _ _ _ SI q a), Gz.
      destruct (get a (s_set s)) as [st|] eqn:Ga; [|reflexivity].
      destruct (eqd (st_proc st) (Some pid)) eqn:P; [|reflexivity].
      apply (proj1 (eqd_true _ _)) in P. specialize (Wp a st Ga P).
      destruct (st_sess st) as [q0|] eqn:Ss.
      * destruct Wp as [m [c [_ [_ Wp]]]]. rewrite Wp. split.
        -- intros [st' [[= <-] K]]. eexists; split; [reflexivity|]. cbn. congruence.
        -- intros [st' [[= <-] K]]. eexists; split; [reflexivity|]. cbn in K. congruence.
      * rewrite Wp. split; intros [st' [K K']]; [injection K as <-|]; congruence.
    + intros a st G P. rewrite Gz in G. destruct (get a (s_set s)) as [st0|] eqn:Ga; [|discriminate].
      destruct (eqd (st_proc st0) (Some pid)) eqn:P0.
      * apply (proj1 (eqd_true _ _)) in P0. specialize (Wp a st0 Ga P0).
        destruct (st_sess st0) as [q0|] eqn:Ss; [|congruence].
        destruct Wp as [m [c [Hm [Gc Wp]]]]. rewrite Wp in G. injection G as <-. exists q0, m, c.
        split; [reflexivity|]. split; [now apply Md|]. auto.
      * injection G as ->. destruct (si_init _ _ _ _ SI a st Ga P) as [q [m [c [X [Y Z]]]]].
        exists q, m, c. split; [assumption|]. split; [now apply Md|assumption].
  - eapply SInv_part; [apply sp_route_request|]. unfold SInv.
    eapply SInv_frame; [exact SI|reflexivity|exact Logic.I|exact Logic.I].
  - unfold SInv; sproj. eapply SInv_frame; [exact SI|reflexivity|exact Logic.I|exact Logic.I].
  - unfold SInv, answer; sproj. eapply SInv_frame; [exact SI|reflexivity|exact Logic.I|exact Logic.I].
  - unfold SInv, answer; sproj. eapply SInv_frame; [exact SI|reflexivity|exact Logic.I|exact Logic.I].
Qed.

(* ---- routed requests ---- *)

Lemma run_det sl tl s h : run sl tl s h -> forall s', run sl tl s' h -> s' = s.
Proof.
  induction 1 as [|s h l s1 r w R IH E]; intros s' R'.
  - inversion R' as [E0|s2 h2 l2 s3 r2 w2 R2 E2 E0 E1]; [reflexivity|].
    destruct h2; discriminate.
  - inversion R' as [E0|s2 h2 l2 s3 r2 w2 R2 E2 E0 E1]; [destruct h; discriminate|].
    apply app_inj_tail in E1 as [-> E1]. injection E1 as -> ->.
    apply IH in R2. subst s2. congruence.
Qed.

Lemma routed_snoc sl tl h l r req u ok s0 :
  routed sl tl h req u ok s0 -> routed sl tl (h ++ [(l, r)]) req u ok s0.
Proof.
  intros [b [a [-> R]]]. exists b, (a ++ [(l, r)]). split; [|assumption].
  now rewrite <- app_assoc.
Qed.

Lemma routed_last sl tl s h u ok : run sl tl s h ->
  routed sl tl (h ++ [(LRoute u ok, RpId (s_next s))]) (s_next s) u ok s.
Proof. intros R. exists h, []. auto. Qed.

Lemma justified_snoc sl tl h l r req x : justified sl tl h req x -> justified sl tl (h ++ [(l, r)]) req x.
Proof.
  destruct x; cbn [justified].
  - intros [u [s0 [A [B C]]]]. exists u, s0. split; [now apply routed_snoc|]. split; [assumption|].
    apply in_app_iff; now left.
  - intros [u [ok [s0 [A B]]]]. exists u, ok, s0. split; [now apply routed_snoc|assumption].
  - intros [u [s0 A]]. exists u, s0. now apply routed_snoc.
  - intros [u [s0 [A C]]]. exists u, s0. split; [now apply routed_snoc|]. apply in_app_iff; now left.
  - intros [u [s0 [p [A [B C]]]]]. exists u, s0, p. split; [now apply routed_snoc|].
    split; [assumption|]. apply in_app_iff; now left.
  - intros [u [s0 [p [q [b [A [B [N C]]]]]]]]. exists u, s0, p, q, b. split; [now apply routed_snoc|].
    split; [assumption|]. split; [assumption|]. apply in_app_iff; now left.
Qed.

Record RInv (sl tl : nat) (s : server) (h : hist) : Prop := {
  ri_pnodup : NoDup (keys (s_pend s));
  ri_fnodup : NoDup (keys (s_fut s));
  ri_anodup : NoDup (map fst (s_answers s));
  ri_fid : forall q, In q (keys (s_fut s)) -> q < s_next s;
  ri_pid : forall q, In q (keys (s_pend s)) -> q < s_next s;
  ri_aid : forall q, In q (map fst (s_answers s)) -> q < s_next s;
  ri_af : forall q, In q (map fst (s_answers s)) -> ~ In q (keys (s_fut s));
  ri_pf : forall q p, get q (s_pend s) = Some p ->
            get q (s_fut s) = Some FWaiting \/ get q (s_fut s) = Some FCancelled;
  ri_wait : forall q, get q (s_fut s) = Some FWaiting -> exists p, get q (s_pend s) = Some p;
  ri_sent : forall q p, get q (s_pend s) = Some p ->
            exists u s0, routed sl tl h q u true s0 /\ owns_unit s0 p u;
  ri_issued : forall q u ok, In (LRoute u ok, RpId q) h ->
            q < s_next s /\ (In q (keys (s_fut s)) \/ In q (map fst (s_answers s)));
  ri_canc : forall q, get q (s_fut s) = Some FCancelled ->
            exists u s0, routed sl tl h q u true s0 /\ In (LTimeoutFires q, RpNone) h;
  ri_done : forall q r, get q (s_fut s) = Some (FDone r) -> justified sl tl h q r;
  ri_ans : forall q r, In (q, r) (s_answers s) -> justified sl tl h q r
}.

Lemma RInv_new sl tl : RInv sl tl (new_server sl tl) [].
Proof.
  constructor; cbn; try (intros; contradiction); try discriminate; constructor.
Qed.

Definition request_part (s : server) := (s_pend s, s_fut s, s_answers s).

(** Commands that do not touch requests. *)
Lemma RInv_frame sl tl s h s' l r : RInv sl tl s h ->
  request_part s' = request_part s -> s_next s <= s_next s' ->
  (forall u ok, l <> LRoute u ok) ->
  RInv sl tl s' (h ++ [(l, r)]).
Proof.
  intros [A B C D E F G H I J K L M N] P Q W. unfold request_part in P.
  injection P as P1 P2 P3.
  constructor; rewrite ?P1, ?P2, ?P3; auto.
  - intros q X; apply D in X; lia.
  - intros q X; apply E in X; lia.
  - intros q X; apply F in X; lia.
  - intros q p X. destruct (J q p X) as [u [s0 [Y Z]]]. exists u, s0. split; [now apply routed_snoc|assumption].
  - intros q u ok X. apply in_app_iff in X as [X|[X|[]]].
    + apply K in X as [Y Z]. split; [lia|assumption].
    + injection X as X _. now apply W in X.
  - intros q X. destruct (L q X) as [u [s0 [Y Z]]]. exists u, s0. split; [now apply routed_snoc|].
    apply in_app_iff; now left.
  - intros q x X. apply justified_snoc; auto.
  - intros q x X. apply justified_snoc; auto.
Qed.

(** A future of [req] (or none) is resolved with [x], its pending entry is gone. *)
Lemma RInv_resolve sl tl s h s' l r pend' fut' P x : RInv sl tl s h ->
  s_pend s' = pend' -> s_fut s' = fut' -> s_answers s' = s_answers s -> s_next s' = s_next s ->
  NoDup (keys pend') -> NoDup (keys fut') ->
  (forall q, {P q} + {~ P q}) ->
  (forall q, P q -> get q pend' = None) -> (forall q, ~ P q -> get q pend' = get q (s_pend s)) ->
  (forall q, P q -> get q fut' = resolve (x q) (get q (s_fut s))) ->
  (forall q, ~ P q -> get q fut' = get q (s_fut s)) ->
  (forall q, P q -> justified sl tl (h ++ [(l, r)]) q (x q)) ->
  (forall u ok, l <> LRoute u ok) ->
  RInv sl tl s' (h ++ [(l, r)]).
Proof.
  intros I Ep Ef Ea En Np Nf Pd Gp Gp' Gf Gf' Ju W.
  assert (Kf : forall q, In q (keys fut') <-> In q (keys (s_fut s))).
  { intros q. split; intros K; apply key_get in K as [f K].
    - destruct (Pd q) as [Y|Y]; [rewrite Gf in K by assumption|rewrite Gf' in K by assumption].
      + destruct (get q (s_fut s)) eqn:Z; [|discriminate]. eapply get_Some_key; eauto.
      + eapply get_Some_key; eauto.
    - destruct (Pd q) as [Y|Y].
      + pose proof (Gf q Y) as Z. rewrite K in Z. destruct f; cbn in Z; eapply get_Some_key; eauto.
      + pose proof (Gf' q Y) as Z. rewrite K in Z. eapply get_Some_key; eauto. }
  assert (Kp : forall q p, get q pend' = Some p -> ~ P q /\ get q (s_pend s) = Some p).
  { intros q p K. destruct (Pd q) as [Y|Y]; [rewrite Gp in K by assumption; discriminate|].
    rewrite Gp' in K by assumption. auto. }
  constructor; rewrite ?Ep, ?Ef, ?Ea, ?En; auto.
  - apply I.
  - intros q K. apply Kf in K. now apply (ri_fid _ _ _ _ I).
  - intros q K. apply key_get in K as [p K]. apply Kp in K as [_ K].
    apply (ri_pid _ _ _ _ I). eapply get_Some_key; eauto.
  - apply I.
  - intros q K. rewrite Kf. now apply (ri_af _ _ _ _ I).
  - intros q p K. apply Kp in K as [Y K]. rewrite Gf' by assumption. eapply (ri_pf _ _ _ _ I); eauto.
  - intros q K. destruct (Pd q) as [Y|Y].
    + rewrite Gf in K by assumption. destruct (get q (s_fut s)) as [[]|]; discriminate.
    + rewrite Gf' in K by assumption. rewrite Gp' by assumption. now apply (ri_wait _ _ _ _ I).
  - intros q p K. apply Kp in K as [_ K]. destruct (ri_sent _ _ _ _ I q p K) as [u [s0 [X Y]]].
    exists u, s0. split; [now apply routed_snoc|assumption].
  - intros q u ok X. apply in_app_iff in X as [X|[X|[]]].
    + apply (ri_issued _ _ _ _ I) in X as [X Y]. rewrite Kf. auto.
    + injection X as X _. now apply W in X.
  - intros q K. assert (K' : get q (s_fut s) = Some FCancelled).
    { destruct (Pd q) as [Y|Y]; [rewrite Gf in K by assumption|now rewrite Gf' in K by assumption].
      destruct (get q (s_fut s)) as [[]|]; cbn in K; congruence. }
    destruct (ri_canc _ _ _ _ I q K') as [u [s0 [X Y]]]. exists u, s0. split; [now apply routed_snoc|].
    apply in_app_iff; now left.
  - intros q z K. destruct (Pd q) as [Y|Y].
    + rewrite Gf in K by assumption. destruct (get q (s_fut s)) as [[]|] eqn:Z; cbn in K; try discriminate.
      * injection K as <-. now apply Ju.
      * injection K as <-. apply justified_snoc. eapply (ri_done _ _ _ _ I); eauto.
    + rewrite Gf' in K by assumption. apply justified_snoc. eapply (ri_done _ _ _ _ I); eauto.
  - intros q z K. apply justified_snoc. eapply (ri_ans _ _ _ _ I); eauto.
Qed.

(** The handler of [req] gives its answer [x]. *)
Lemma RInv_answer sl tl s h s' l req x : RInv sl tl s h ->
  In req (keys (s_fut s)) ->
  s_pend s' = del req (s_pend s) -> s_fut s' = del req (s_fut s) ->
  s_answers s' = s_answers s ++ [(req, x)] -> s_next s' = s_next s ->
  justified sl tl (h ++ [(l, RpNone)]) req x ->
  (forall u ok, l <> LRoute u ok) ->
  RInv sl tl s' (h ++ [(l, RpNone)]).
Proof.
  intros I Kr Ep Ef Ea En Ju W.
  assert (Kp : forall q p, get q (del req (s_pend s)) = Some p -> q <> req /\ get q (s_pend s) = Some p).
  { intros q p K. rewrite get_del in K. destruct (dec q req); [discriminate|auto]. }
  assert (Kf : forall q f, get q (del req (s_fut s)) = Some f -> q <> req /\ get q (s_fut s) = Some f).
  { intros q p K. rewrite get_del in K. destruct (dec q req); [discriminate|auto]. }
  constructor; rewrite ?Ep, ?Ef, ?Ea, ?En.
  - apply NoDup_keys_del, I.
  - apply NoDup_keys_del, I.
  - rewrite map_app; cbn. apply NoDup_app_one; [apply I|]. intros K.
    now apply (ri_af _ _ _ _ I) in K.
  - intros q K. apply keys_del in K as [_ K]. now apply (ri_fid _ _ _ _ I).
  - intros q K. apply keys_del in K as [_ K]. now apply (ri_pid _ _ _ _ I).
  - intros q K. rewrite map_app in K. apply in_app_iff in K as [K|[<-|[]]].
    + now apply (ri_aid _ _ _ _ I).
    + now apply (ri_fid _ _ _ _ I).
  - intros q K. rewrite map_app in K. rewrite keys_del. apply in_app_iff in K as [K|[<-|[]]].
    + intros [_ X]. now apply (ri_af _ _ _ _ I) in K.
    + cbn. tauto.
  - intros q p K. apply Kp in K as [N K]. rewrite get_del_neq by assumption.
    eapply (ri_pf _ _ _ _ I); eauto.
  - intros q K. apply Kf in K as [N K]. rewrite get_del_neq by assumption. now apply (ri_wait _ _ _ _ I).
  - intros q p K. apply Kp in K as [N K]. destruct (ri_sent _ _ _ _ I q p K) as [u [s0 [X Y]]].
    exists u, s0. split; [now apply routed_snoc|assumption].
  - intros q u ok X. apply in_app_iff in X as [X|[X|[]]].
    + apply (ri_issued _ _ _ _ I) in X as [X Y]. split; [assumption|].
      rewrite keys_del, map_app, in_app_iff; cbn.
      destruct (Nat.eq_dec q req) as [->|N]; [auto|]. tauto.
    + injection X as X _. now apply W in X.
  - intros q K. apply Kf in K as [N K]. destruct (ri_canc _ _ _ _ I q K) as [u [s0 [X Y]]].
    exists u, s0. split; [now apply routed_snoc|]. apply in_app_iff; now left.
  - intros q z K. apply Kf in K as [N K]. apply justified_snoc. eapply (ri_done _ _ _ _ I); eauto.
  - intros q z K. apply in_app_iff in K as [K|[[= <- <-]|[]]]; [|assumption].
    apply justified_snoc. eapply (ri_ans _ _ _ _ I); eauto.
Qed.

(** A new request that is answered at once. *)
Lemma RInv_refused sl tl s h s' l x : RInv sl tl s h ->
  s_pend s' = s_pend s -> s_fut s' = s_fut s ->
  s_answers s' = s_answers s ++ [(s_next s, x)] -> s_next s' = S (s_next s) ->
  justified sl tl (h ++ [(l, RpId (s_next s))]) (s_next s) x ->
  RInv sl tl s' (h ++ [(l, RpId (s_next s))]).
Proof.
  intros I Ep Ef Ea En Ju. constructor; rewrite ?Ep, ?Ef, ?Ea, ?En.
  - apply I.
  - apply I.
  - rewrite map_app; cbn. apply NoDup_app_one; [apply I|]. intros K.
    apply (ri_aid _ _ _ _ I) in K. lia.
  - intros q K. apply (ri_fid _ _ _ _ I) in K. lia.
  - intros q K. apply (ri_pid _ _ _ _ I) in K. lia.
  - intros q K. rewrite map_app in K. apply in_app_iff in K as [K|[<-|[]]]; [|cbn; lia].
    apply (ri_aid _ _ _ _ I) in K. lia.
  - intros q K. rewrite map_app in K. apply in_app_iff in K as [K|[<-|[]]].
    + now apply (ri_af _ _ _ _ I) in K.
    + intros K. apply (ri_fid _ _ _ _ I) in K. cbn in K. lia.
  - apply I.
  - apply I.
  - intros q p K. destruct (ri_sent _ _ _ _ I q p K) as [u [s0 [X Y]]].
    exists u, s0. split; [now apply routed_snoc|assumption].
  - intros q u ok X. rewrite map_app, in_app_iff; cbn. apply in_app_iff in X as [X|[X|[]]].
    + apply (ri_issued _ _ _ _ I) in X as [X Y]. split; [lia|tauto].
    + injection X as _ ->. split; [lia|tauto].
  - intros q K. destruct (ri_canc _ _ _ _ I q K) as [u [s0 [X Y]]].
    exists u, s0. split; [now apply routed_snoc|]. apply in_app_iff; now left.
  - intros q z K. apply justified_snoc. eapply (ri_done _ _ _ _ I); eauto.
  - intros q z K. apply in_app_iff in K as [K|[[= <- <-]|[]]]; [|assumption].
    apply justified_snoc. eapply (ri_ans _ _ _ _ I); eauto.
Qed.

Lemma rp_register sid md s es md0 : session_info sid s = Some (es, md0) ->
  request_part (apply_metadata sid md (set_metadata sid (Some md) (remove_settings_for_session sid s)))
  = request_part s.
Proof.
  intros Si. destruct (remove_settings_for_session_eq sid s) as [x [Ex _]]. rewrite Ex.
  rewrite (set_metadata_eq sid (Some md) _ es md0) by exact Si.
  unfold apply_metadata. cbn.
  match goal with |- request_part (set_owned _ (fold_left _ ?l ?s0)) = _ =>
    change (request_part (fold_left (apply_metadata_one sid) l s0) = request_part s) end.
  assert (F : forall cl s1, request_part (fold_left (apply_metadata_one sid) cl s1) = request_part s1).
  { induction cl as [|c cl IH]; intros s1; cbn; [reflexivity|]. now rewrite IH. }
  rewrite F. reflexivity.
Qed.

Lemma next_register sid md s es md0 : session_info sid s = Some (es, md0) ->
  s_next (apply_metadata sid md (set_metadata sid (Some md) (remove_settings_for_session sid s)))
  = s_next s.
Proof.
  intros Si. pose proof (dag_register sid md s es md0 Si) as K. unfold core in K.
  apply (f_equal (fun p => fst (fst p))) in K. exact K.
Qed.

Lemma RInv_effect sl tl s h l s' r : run sl tl s h -> CInv s -> NoDup (keys (s_set s)) ->
  RInv sl tl s h -> effect s l s' r -> RInv sl tl s' (h ++ [(l, r)]).
Proof.
  intros R I NS RI H. destruct H as
    [l c s' Hc W E | l r W | id c s' G Hc E | f t s' d' r tl' A N E | f t s' d' ch tl' A E
    | sid f t s' d' r tl' es md Si A N E | sid f t s' d' ch tl' es md Si A E
    | sid md es md0 s' Si C E | sid es md d' ts x tl' s' Si C G N E | sid es md d' ts x tl' s' Si C G N E
    | pid us us0 s' tl' Pi C E | pid added removed us0 s' tl' Pi C E | pid a v us s' msid Pi Ia M E
    | pid req body us Pi | pid us Pi | u ok | req G | req G | req r G ].
  - subst s'. eapply RInv_frame; [exact RI|reflexivity|sproj; lia|].
    destruct W as [[-> _]|[[-> _]|[[t [-> _]]|[[t [-> _]]|[p [t [-> _]]]]]]]; discriminate.
  - eapply RInv_frame; [exact RI|reflexivity|lia|]. destruct l; try destruct W; discriminate.
  - subst s'. eapply RInv_frame; [exact RI|reflexivity|sproj; lia|discriminate].
  - subst s'. eapply RInv_frame; [exact RI|reflexivity|sproj; lia|discriminate].
  - subst s'. eapply RInv_frame; [exact RI|reflexivity|sproj; lia|discriminate].
  - subst s'. eapply RInv_frame; [exact RI|reflexivity|sproj; lia|discriminate].
  - subst s'. eapply RInv_frame; [exact RI|reflexivity|sproj; lia|discriminate].
  - subst s'. eapply RInv_frame; [exact RI|eapply rp_register; eauto| |discriminate].
    rewrite (next_register sid md s es md0 Si). lia.
  - subst s'. eapply RInv_frame; [exact RI|reflexivity|sproj; lia|discriminate].
  - subst s'. eapply RInv_frame; [exact RI|reflexivity|sproj; lia|discriminate].
  - subst s'. eapply RInv_frame; [exact RI|reflexivity|sproj; lia|discriminate].
  - subst s'. eapply RInv_frame; [exact RI|reflexivity|sproj; lia|discriminate].
  - subst s'. eapply RInv_frame; [exact RI|reflexivity|sproj; lia|discriminate].
  - (* response *)
    unfold route_response. destruct (get req (s_pend s)) as [o|] eqn:Gp.
    2: { eapply RInv_frame; [exact RI|reflexivity|lia|discriminate]. }
    assert (Ls : In (LProcResponse pid req body, RpNone) (h ++ [(LProcResponse pid req body, RpNone)]))
      by (apply in_app_iff; right; now left).
    set (x := if eqd o pid then RespFrom pid body else RespInvalid).
    assert (Ej : justified sl tl (h ++ [(LProcResponse pid req body, RpNone)]) req x).
    { destruct (ri_sent _ _ _ _ RI req o Gp) as [u [s0 [X Y]]]. unfold x.
      destruct (eqd o pid) eqn:Eo.
      - apply (proj1 (eqd_true _ _)) in Eo; subst o. exists u, s0. split; [now apply routed_snoc|]. auto.
      - apply (proj1 (eqd_false _ _)) in Eo. exists u, s0, o, pid, body.
        split; [now apply routed_snoc|]. auto. }
    assert (Es : (if eqd o pid then set_result req (RespFrom pid body) (set_pend (del req (s_pend s)) s)
                  else set_result req RespInvalid (set_pend (del req (s_pend s)) s))
                 = set_result req x (set_pend (del req (s_pend s)) s)).
    { unfold x. destruct (eqd o pid); reflexivity. }
    rewrite Es. destruct (set_result_eq req x (set_pend (del req (s_pend s)) s)) as [y [Ey [Gy [Ky Ny]]]].
    rewrite Ey. sproj_in Gy. sproj_in Ky. sproj_in Ny.
    eapply (RInv_resolve sl tl s h _ _ _ _ _ (fun q => q = req) (fun _ => x));
      [exact RI|reflexivity|reflexivity|reflexivity|reflexivity| | | | | | | | |discriminate]; sproj.
    + apply NoDup_keys_del, RI.
    + apply Ny, RI.
    + intros q. apply Nat.eq_dec.
    + intros q ->. apply get_del_eq.
    + intros q N. now apply get_del_neq.
    + intros q ->. rewrite Gy, eqd_refl. reflexivity.
    + intros q N. rewrite Gy, eqd_neq by assumption. reflexivity.
    + intros q ->. exact Ej.
  - (* process gone *)
    destruct (process_gone_eq pid s NS (ri_pnodup _ _ _ _ RI))
      as [x [y [z [E [Gx [Gy [Ky [Ny [Nx [Gz Nz]]]]]]]]]].
    rewrite E.
    eapply (RInv_resolve sl tl s h _ _ _ _ _ (fun q => get q (s_pend s) = Some pid) (fun _ => RespGone));
      [exact RI|reflexivity|reflexivity|reflexivity|reflexivity| | | | | | | | |discriminate]; sproj.
    + assumption.
    + apply Ny, RI.
    + intros q. destruct (eqd (get q (s_pend s)) (Some pid)) eqn:Q;
        [left; now apply (proj1 (eqd_true _ _))|right; now apply (proj1 (eqd_false _ _))].
    + intros q Q. rewrite Gx, Q, eqd_refl. reflexivity.
    + intros q Q. rewrite Gx, eqd_neq by assumption. reflexivity.
    + intros q Q. rewrite Gy, Q, eqd_refl. reflexivity.
    + intros q Q. rewrite Gy, eqd_neq by assumption. reflexivity.
    + intros q Q. destruct (ri_sent _ _ _ _ RI q pid Q) as [u [s0 [X Y]]]. exists u, s0, pid.
      split; [now apply routed_snoc|]. split; [assumption|]. apply in_app_iff; right; now left.
  - (* route *)
    assert (Fp : ~ In (s_next s) (keys (s_pend s))).
    { intros K. apply (ri_pid _ _ _ _ RI) in K. lia. }
    assert (Ff : ~ In (s_next s) (keys (s_fut s))).
    { intros K. apply (ri_fid _ _ _ _ RI) in K. lia. }
    unfold route_request. sproj. destruct (process_owner u (s_clients s)) as [p|] eqn:Po.
    + assert (Ow : owns_unit s p u).
      { apply process_owner_Some in Po as [us [X Y]]. exists us. auto. }
      destruct ok.
      * set (h' := h ++ [(LRoute u true, RpId (s_next s))]).
        assert (Lr : routed sl tl h' (s_next s) u true s) by now apply routed_last.
        constructor; unfold answer; sproj.
        -- apply NoDup_keys_put, RI.
        -- apply NoDup_keys_put, RI.
        -- apply RI.
        -- intros q K. apply keys_put in K as [->|K]; [lia|]. apply (ri_fid _ _ _ _ RI) in K; lia.
        -- intros q K. apply keys_put in K as [->|K]; [lia|]. apply (ri_pid _ _ _ _ RI) in K; lia.
        -- intros q K. apply (ri_aid _ _ _ _ RI) in K; lia.
        -- intros q K. rewrite keys_put. intros [->|X].
           ++ apply (ri_aid _ _ _ _ RI) in K; lia.
           ++ now apply (ri_af _ _ _ _ RI) in K.
        -- intros q p0. rewrite !get_put. destruct (dec q (s_next s)); [auto|]. apply RI.
        -- intros q. rewrite !get_put. destruct (dec q (s_next s)); [eauto|]. apply RI.
        -- intros q p0. rewrite get_put. destruct (dec q (s_next s)) as [->|N].
           ++ intros [= <-]. eauto.
           ++ intros K. destruct (ri_sent _ _ _ _ RI q p0 K) as [u0 [s0 [X Y]]]. exists u0, s0.
              split; [now apply routed_snoc|assumption].
        -- intros q u0 ok K. rewrite keys_put. apply in_app_iff in K as [K|[K|[]]].
           ++ apply (ri_issued _ _ _ _ RI) in K as [X Y]. split; [lia|tauto].
           ++ injection K as _ _ ->. split; [lia|auto].
        -- intros q. rewrite get_put. destruct (dec q (s_next s)) as [->|N]; [discriminate|].
           intros K. destruct (ri_canc _ _ _ _ RI q K) as [u0 [s0 [X Y]]]. exists u0, s0.
           split; [now apply routed_snoc|]. apply in_app_iff; now left.
        -- intros q r. rewrite get_put. destruct (dec q (s_next s)) as [->|N]; [discriminate|].
           intros K. apply justified_snoc. eapply (ri_done _ _ _ _ RI); eauto.
        -- intros q r K. apply justified_snoc. eapply (ri_ans _ _ _ _ RI); eauto.
      * eapply RInv_refused; [exact RI| | |reflexivity|reflexivity|]; unfold answer; sproj.
        -- now apply del_put_absent.
        -- now apply del_put_absent.
        -- exists u, s. now apply routed_last.
    + eapply RInv_refused; [exact RI|reflexivity|reflexivity|reflexivity|reflexivity|].
      exists u, ok, s. split; [now apply routed_last|]. intros p [us [X Y]].
      now apply (process_owner_None u _ Po p us).
  - (* timeout fires *)
    destruct (ri_wait _ _ _ _ RI req G) as [p Gp].
    constructor; sproj.
    + apply RI.
    + apply NoDup_keys_put, RI.
    + apply RI.
    + intros q K. apply keys_put in K as [->|K]; [|now apply (ri_fid _ _ _ _ RI)].
      apply (ri_fid _ _ _ _ RI). eapply get_Some_key; eauto.
    + apply RI.
    + apply RI.
    + intros q K. rewrite keys_put. intros [->|X]; [|now apply (ri_af _ _ _ _ RI) in K].
      apply (ri_af _ _ _ _ RI) in K. apply K. eapply get_Some_key; eauto.
    + intros q p0 K. rewrite get_put. destruct (dec q req); [auto|]. eapply (ri_pf _ _ _ _ RI); eauto.
    + intros q. rewrite get_put. destruct (dec q req); [discriminate|]. apply RI.
    + intros q p0 K. destruct (ri_sent _ _ _ _ RI q p0 K) as [u0 [s0 [X Y]]]. exists u0, s0.
      split; [now apply routed_snoc|assumption].
    + intros q u0 ok K. rewrite keys_put. apply in_app_iff in K as [K|[K|[]]]; [|discriminate].
      apply (ri_issued _ _ _ _ RI) in K as [X Y]. split; [assumption|tauto].
    + intros q. rewrite get_put. destruct (dec q req) as [->|N].
      * intros _. destruct (ri_sent _ _ _ _ RI req p Gp) as [u0 [s0 [X Y]]]. exists u0, s0.
        split; [now apply routed_snoc|]. apply in_app_iff; right; now left.
      * intros K. destruct (ri_canc _ _ _ _ RI q K) as [u0 [s0 [X Y]]]. exists u0, s0.
        split; [now apply routed_snoc|]. apply in_app_iff; now left.
    + intros q x. rewrite get_put. destruct (dec q req) as [->|N]; [discriminate|].
      intros K. apply justified_snoc. eapply (ri_done _ _ _ _ RI); eauto.
    + intros q x K. apply justified_snoc. eapply (ri_ans _ _ _ _ RI); eauto.
  - (* timeout answered *)
    eapply RInv_answer; [exact RI|eapply get_Some_key; eauto|reflexivity|reflexivity|reflexivity|reflexivity| |discriminate].
    destruct (ri_canc _ _ _ _ RI req G) as [u0 [s0 [X Y]]]. exists u0, s0.
    split; [now apply routed_snoc|]. apply in_app_iff; now left.
  - (* answered *)
    assert (Np : get req (s_pend s) = None).
    { destruct (get req (s_pend s)) as [p|] eqn:P; [|reflexivity].
      destruct (ri_pf _ _ _ _ RI req p P); congruence. }
    eapply RInv_answer with (req := req) (x := r);
      [exact RI|eapply get_Some_key; eauto| |reflexivity|reflexivity|reflexivity| |discriminate].
    + unfold answer; sproj. symmetry. apply del_absent. now apply get_None.
    + apply justified_snoc. eapply (ri_done _ _ _ _ RI); eauto.
Qed.

(* ---- everything, by induction over executions ---- *)

Lemma NoDup_set_register sid md s es md0 : session_info sid s = Some (es, md0) ->
  NoDup (keys (s_set s)) ->
  NoDup (keys (s_set (apply_metadata sid md (set_metadata sid (Some md) (remove_settings_for_session sid s))))).
Proof.
  intros Si ND. destruct (remove_settings_for_session_eq sid s) as [x [Ex [_ Nx]]]. rewrite Ex.
  rewrite (set_metadata_eq sid (Some md) _ es md0) by exact Si.
  unfold apply_metadata. sproj.
  assert (F : forall cl s1, NoDup (keys (s_set s1)) ->
            NoDup (keys (s_set (fold_left (apply_metadata_one sid) cl s1)))).
  { induction cl as [|c cl IH]; intros s1 N1; cbn [fold_left]; [assumption|]. apply IH.
    unfold apply_metadata_one, append_settings_event; sproj. now apply NoDup_keys_put. }
  apply F. sproj. auto.
Qed.

Lemma NoDup_set_effect s l s' r : NoDup (keys (s_set s)) -> NoDup (keys (s_pend s)) ->
  effect s l s' r -> NoDup (keys (s_set s')).
Proof.
  intros NS NP H. destruct H as
    [l c s' Hc W E | l r W | id c s' G Hc E | f t s' d' r tl A N E | f t s' d' ch tl A E
    | sid f t s' d' r tl es md Si A N E | sid f t s' d' ch tl es md Si A E
    | sid md es md0 s' Si C E | sid es md d' ts x tl s' Si C G N E | sid es md d' ts x tl s' Si C G N E
    | pid us us0 s' tl Pi C E | pid added removed us0 s' tl Pi C E | pid a v us s' msid Pi Ia M E
    | pid req body us Pi | pid us Pi | u ok | req G | req G | req r G ];
    try (subst s'; sproj; auto; fail); try (sproj; auto; fail); try assumption.
  - subst s'. eapply NoDup_set_register; eauto.
  - subst s'. sproj. now apply NoDup_keys_put.
  - pose proof (sp_route_response pid req body s) as K. unfold settings_part in K.
    apply (f_equal (fun p => snd (fst (fst p)))) in K. cbn [fst snd] in K. now rewrite K.
  - destruct (process_gone_eq pid s NS NP) as [x [y [z [E [_ [_ [_ [_ [_ [_ Nz]]]]]]]]]].
    rewrite E. sproj. assumption.
  - pose proof (sp_route_request u ok s) as K. unfold settings_part in K.
    apply (f_equal (fun p => snd (fst (fst p)))) in K. cbn [fst snd] in K. now rewrite K.
Qed.

Lemma RInv_run sl tl s h : run sl tl s h -> RInv sl tl s h /\ NoDup (keys (s_set s)).
Proof.
  induction 1 as [|s h l s' r w R [RI NS] E].
  - split; [apply RInv_new|constructor].
  - pose proof (CInv_run _ _ _ _ R) as I. pose proof (step_effect s l s' r w I E) as Ef. split.
    + now apply (RInv_effect sl tl s h l s' r).
    + exact (NoDup_set_effect s l s' r NS (ri_pnodup _ _ _ _ RI) Ef).
Qed.

Lemma SInv_run sl tl s h : run sl tl s h -> well_keyed h -> SInv s h.
Proof.
  induction 1 as [|s h l s' r w R IH E]; intros Wk; [apply SInv_new|].
  destruct (RInv_run _ _ _ _ R) as [RI NS]. pose proof (CInv_run _ _ _ _ R) as I.
  eapply SInv_effect; eauto.
  - apply IH. intros sid md x K. apply (Wk sid md x). apply in_app_iff; now left.
  - intros sid md ->. apply (Wk sid md r). apply in_app_iff; right; now left.
  - apply RI.
  - eapply step_effect; eauto.
Qed.

(* ---- C33, C34: exclusive claims ---- *)

Lemma unit_owner_unique sl tl s h : run sl tl s h -> forall p q u,
  owns_unit s p u -> owns_unit s q u -> p = q.
Proof.
  intros R p q u [us [A B]] [vs [C D]]. pose proof (CInv_run _ _ _ _ R) as I.
  apply In_get in A; [|apply I]. apply In_get in C; [|apply I].
  eapply (c_units _ _ _ I); eauto.
Qed.

Lemma describes_in_iff s sid a : CInv s -> (describes s sid a <-> describes_in (s_clients s) sid a).
Proof.
  intros I. split.
  - intros [es [md [A B]]]. exists md. split; [|exact B]. exists es. apply In_get; [apply I|assumption].
  - intros [md [[es A] B]]. exists es, md. split; [now apply get_In|exact B].
Qed.

Lemma describer_unique sl tl s h : run sl tl s h -> forall p q a,
  describes s p a -> describes s q a -> p = q.
Proof.
  intros R p q a A B. pose proof (CInv_run _ _ _ _ R) as I.
  apply (describes_in_iff s _ _ I) in A. apply (describes_in_iff s _ _ I) in B.
  eapply describes_unique; eauto.
Qed.

Lemma refused_same sl tl s h l s' r w : run sl tl s h -> step s l = Some (s', r, w) ->
  r = RpError \/ r = RpCyclic -> s' = s.
Proof.
  intros R E Hr. pose proof (CInv_run _ _ _ _ R) as I. apply (step_effect s l s' r w I) in E.
  destruct E; try (destruct Hr; discriminate). reflexivity.
Qed.

Lemma owned_elsewhere s pid us : CInv s ->
  (conflicts pid us s <> [] <-> exists u q, In u us /\ q <> pid /\ owns_unit s q u).
Proof.
  intros I. pose proof (conflicts_nil pid us s (c_nodup _ _ _ I) (c_units _ _ _ I)) as C. split.
  - intros N. unfold conflicts in N.
    destruct (filter _ us) as [|u l] eqn:E; [congruence|].
    assert (J : In u (u :: l)) by now left. rewrite <- E in J. apply filter_In in J as [A B].
    destruct (process_owner u (s_clients s)) as [o|] eqn:P; [|discriminate].
    apply negb_true_iff, (proj1 (eqd_false _ _)) in B.
    apply process_owner_Some in P as [ws [X Y]]. exists u, o. split; [assumption|]. split; [assumption|].
    exists ws; auto.
  - intros [u [q [A [N [vs [B D]]]]]] E. apply In_get in B; [|apply I].
    now apply (proj1 C E q vs u N B A).
Qed.

Lemma described_elsewhere s sid md : CInv s ->
  (metadata_collisions sid md s <> [] <-> exists a q, In a (map fst md) /\ q <> sid /\ describes s q a).
Proof.
  intros I. pose proof (collisions_nil sid md s (c_nodup _ _ _ I)) as C. split.
  - intros N. unfold metadata_collisions in N.
    destruct (flat_map _ _) as [|a l] eqn:E; [congruence|].
    assert (J : In a (a :: l)) by now left. rewrite <- E in J.
    apply in_flat_map in J as [[q c] [J F]]. cbn [fst snd] in F.
    destruct c as [t|t|pb|es [md'|]|vs]; try (destruct F; fail).
    destruct (eqd q sid) eqn:Eq; [destruct F|]. apply (proj1 (eqd_false _ _)) in Eq.
    apply filter_In in F as [A B]. apply mem_In in B. exists a, q. split; [exact A|].
    split; [assumption|]. exists es, md'. auto.
  - intros [a [q [A [N [es [md' [B D]]]]]]] E. apply In_get in B; [|apply I].
    now apply (proj1 C E q es md' a N B A).
Qed.

Definition units_of (s : server) (p : nat) (us : list addr) : Prop := In (p, CProc us) (s_clients s).

Lemma claim_accepted_iff sl tl s h pid us : run sl tl s h -> (exists vs, In (pid, CProc vs) (s_clients s)) ->
  exists s' r w, step s (LProcRegister pid us) = Some (s', r, w) /\
   ((r = RpError /\ s' = s /\ exists u q, In u us /\ q <> pid /\ owns_unit s q u) \/
    (r = RpComplete /\ (forall u q, In u us -> q <> pid -> ~ owns_unit s q u) /\
     forall q u, owns_unit s' q u <-> (q = pid /\ In u us) \/ (q <> pid /\ owns_unit s q u))).
Proof.
  intros R [vs Hp]. pose proof (CInv_run _ _ _ _ R) as I. apply In_get in Hp; [|apply I].
  pose proof (owned_elsewhere s pid us I) as C.
  assert (Pi : process_info pid s = Some vs) by now apply process_info_get.
  cbn [step]. unfold register_process. rewrite Pi.
  destruct (conflicts pid us s) as [|u0 l] eqn:E.
  - destruct (process_changed_eq pid vs (to_set us)
        (set_clients (put pid (CProc (to_set us)) (s_clients s)) s)) as [tlg Et].
    rewrite Et. eexists _, _, _. split; [reflexivity|]. right. split; [reflexivity|]. split.
    + intros u q A N B. assert (K : (@nil addr) <> []) by (apply C; eauto). congruence.
    + intros q u. unfold owns_unit; sproj. split.
      * intros [ws [A B]]. apply In_put in A as [[-> A]|[N A]]; [|right; split; [assumption|eauto]|apply I].
        injection A as ->. left; split; [reflexivity|]. now apply (proj1 (In_to_set us u)).
      * intros [[-> A]|[N [ws [A B]]]].
        -- exists (to_set us). split; [apply In_put; [apply I|auto]|]. now apply In_to_set.
        -- exists ws. split; [apply In_put; [apply I|auto]|assumption].
  - eexists _, _, _. split; [reflexivity|]. left. split; [reflexivity|]. split; [reflexivity|].
    apply C. congruence.
Qed.

Lemma ownership_accepted_iff sl tl s h pid added removed : run sl tl s h ->
  (exists vs, In (pid, CProc vs) (s_clients s)) ->
  exists s' r w, step s (LProcOwn pid added removed) = Some (s', r, w) /\
   ((r = RpError /\ s' = s /\ exists u q, In u added /\ q <> pid /\ owns_unit s q u) \/
    (r = RpComplete /\ (forall u q, In u added -> q <> pid -> ~ owns_unit s q u) /\
     forall q u, owns_unit s' q u <->
       (q = pid /\ (owns_unit s pid u \/ In u added) /\ ~ In u removed) \/
       (q <> pid /\ owns_unit s q u))).
Proof.
  intros R [vs Hp]. pose proof (CInv_run _ _ _ _ R) as I.
  pose proof (In_get _ _ _ (c_nodup _ _ _ I) Hp) as Gp.
  pose proof (owned_elsewhere s pid added I) as C.
  assert (Pi : process_info pid s = Some vs) by now apply process_info_get.
  cbn [step]. unfold update_ownership. rewrite Pi.
  destruct (conflicts pid added s) as [|u0 l] eqn:E.
  - match goal with |- context [process_changed pid vs ?us ?s1] =>
        destruct (process_changed_eq pid vs us s1) as [tlg Et] end.
    rewrite Et. eexists _, _, _. split; [reflexivity|]. right. split; [reflexivity|]. split.
    + intros u q A N B. assert (K : (@nil addr) <> []) by (apply C; eauto). congruence.
    + assert (F : forall u, In u (filter (fun u => negb (mem u removed))
                 (fold_left (fun acc x => sadd x acc) added vs)) <->
                 (owns_unit s pid u \/ In u added) /\ ~ In u removed).
      { intros u. rewrite filter_In, negb_true_iff, mem_false.
        rewrite (fold_sadd_In added vs u). split.
        - intros [[A|A] B]; split; auto. left. exists vs; auto.
        - intros [[[ws [A A']]|A] B]; split; auto. left.
          apply In_get in A; [|apply I]. rewrite Gp in A. injection A as <-. assumption. }
      intros q u. unfold owns_unit at 1; sproj. split.
      * intros [ws [A B]]. apply In_put in A as [[-> A]|[N A]]; [| |apply I].
        -- injection A as ->. apply F in B. left; split; [reflexivity|exact B].
        -- right; split; [assumption|]. exists ws; auto.
      * intros [[-> A]|[N [ws [A B]]]].
        -- eexists. split; [apply In_put; [apply I|left; split; reflexivity]|]. now apply F.
        -- exists ws. split; [apply In_put; [apply I|auto]|assumption].
  - eexists _, _, _. split; [reflexivity|]. left. split; [reflexivity|]. split; [reflexivity|].
    apply C. congruence.
Qed.

Lemma registration_accepted_iff sl tl s h sid md : run sl tl s h ->
  (exists es m, In (sid, CSess es m) (s_clients s)) ->
  exists s' r w, step s (LSessRegister sid md) = Some (s', r, w) /\
   ((r = RpError /\ s' = s /\ exists a q, In a (map fst md) /\ q <> sid /\ describes s q a) \/
    (r = RpComplete /\ (forall a q, In a (map fst md) -> q <> sid -> ~ describes s q a) /\
     forall q a, describes s' q a <->
       (q = sid /\ In a (map fst md)) \/ (q <> sid /\ describes s q a))).
Proof.
  intros R [es [m Hp]]. pose proof (CInv_run _ _ _ _ R) as I.
  pose proof (In_get _ _ _ (c_nodup _ _ _ I) Hp) as Gp.
  pose proof (described_elsewhere s sid md I) as C.
  assert (Si : session_info sid s = Some (es, m)) by now apply session_info_get.
  cbn [step]. unfold register_session. rewrite Si.
  destruct (metadata_collisions sid md s) as [|u0 l] eqn:E.
  - eexists _, _, _. split; [reflexivity|]. right. split; [reflexivity|]. split.
    + intros u q A N B. assert (K : (@nil addr) <> []) by (apply C; eauto). congruence.
    + pose proof (dag_register sid md s es m Si) as K. unfold core in K.
      apply (f_equal snd) in K. cbn [snd] in K.
      intros q a. unfold describes. rewrite K. split.
      * intros [es' [md' [A B]]]. apply In_put in A as [[-> A]|[N A]]; [| |apply I].
        -- injection A as -> ->. now left.
        -- right; split; [assumption|]. exists es', md'; auto.
      * intros [[-> A]|[N [es' [md' [A B]]]]].
        -- exists es, md. split; [apply In_put; [apply I|left; split; reflexivity]|assumption].
        -- exists es', md'. split; [apply In_put; [apply I|auto]|assumption].
  - eexists _, _, _. split; [reflexivity|]. left. split; [reflexivity|]. split; [reflexivity|].
    apply C. congruence.
Qed.

(* ---- C35: answers ---- *)

Lemma answers_count sl tl s h q : run sl tl s h ->
  (answers_to s q = [] /\ ~ In q (map fst (s_answers s))) \/
  (exists r, answers_to s q = [r] /\ In (q, r) (s_answers s)).
Proof.
  intros R. destruct (RInv_run _ _ _ _ R) as [RI _]. pose proof (ri_anodup _ _ _ _ RI) as ND.
  unfold answers_to. clear RI R. induction (s_answers s) as [|[p r] l IH]; cbn.
  - left; split; [reflexivity|intros []].
  - cbn in ND. inversion ND as [|? ? N ND']; subst. destruct (eqd p q) eqn:E; cbn.
    + apply (proj1 (eqd_true _ _)) in E; subst p. right. exists r. split; [|now left].
      destruct (IH ND') as [[A B]|[r' [A B]]].
      * now rewrite A.
      * exfalso; apply N. apply in_map_iff. now exists (q, r').
    + apply (proj1 (eqd_false _ _)) in E. destruct (IH ND') as [[A B]|[r' [A B]]].
      * left. split; [assumption|]. intros [X|X]; tauto.
      * right. exists r'. split; [assumption|now right].
Qed.

Lemma one_answer sl tl s h q u ok : run sl tl s h -> In (LRoute u ok, RpId q) h ->
  (answers_to s q = [] /\ waits s q) \/
  (exists r, answers_to s q = [r] /\ ~ waits s q /\ justified sl tl h q r).
Proof.
  intros R K. destruct (RInv_run _ _ _ _ R) as [RI _].
  destruct (ri_issued _ _ _ _ RI q u ok K) as [_ D].
  destruct (answers_count sl tl s h q R) as [[A B]|[r [A B]]].
  - left. split; [assumption|]. destruct D as [D|D]; [exact D|tauto].
  - right. exists r. split; [assumption|]. split.
    + apply (ri_af _ _ _ _ RI). apply in_map_iff. now exists (q, r).
    + eapply (ri_ans _ _ _ _ RI); eauto.
Qed.

Lemma can_answer sl tl s h q : run sl tl s h -> waits s q ->
  exists ls s' h', run sl tl s' (h ++ h') /\ map fst h' = ls /\
    (ls = [LAnswer q] \/ ls = [LTimeoutAnswer q] \/ ls = [LTimeoutFires q; LTimeoutAnswer q]) /\
    exists r, answers_to s' q = [r].
Proof.
  intros R W. destruct (RInv_run _ _ _ _ R) as [RI _]. apply key_get in W as [f G].
  assert (Fin : forall s' hh x, run sl tl s' hh -> In (q, x) (s_answers s') -> exists r, answers_to s' q = [r]).
  { intros s' hh x R' J. destruct (answers_count sl tl s' hh q R') as [[A B]|[r [A B]]]; [|eauto].
    exfalso; apply B. apply in_map_iff. now exists (q, x). }
  destruct f.
  - assert (S1 : step s (LTimeoutFires q) = Some (set_fut (put q FCancelled (s_fut s)) s, RpNone, []))
      by (cbn [step]; now rewrite G).
    pose proof (run_step sl tl s h _ _ _ _ R S1) as R1.
    set (s1 := set_fut (put q FCancelled (s_fut s)) s) in *.
    assert (G1 : get q (s_fut s1) = Some FCancelled) by (unfold s1; sproj; apply get_put_eq).
    assert (S2 : step s1 (LTimeoutAnswer q) = Some (answer q RespTimeout
                  (set_fut (del q (s_fut s1)) (set_pend (del q (s_pend s1)) s1)), RpNone, []))
      by (cbn [step]; now rewrite G1).
    pose proof (run_step sl tl s1 _ _ _ _ _ R1 S2) as R2.
    eexists _, _, [(LTimeoutFires q, RpNone); (LTimeoutAnswer q, RpNone)].
    rewrite <- app_assoc in R2. split; [exact R2|]. split; [reflexivity|]. split; [auto|].
    eapply Fin; [exact R2|]. unfold answer; sproj. apply in_app_iff; right; now left.
  - assert (S1 : step s (LAnswer q) = Some (answer q r (set_fut (del q (s_fut s)) s), RpNone, []))
      by (cbn [step]; now rewrite G).
    pose proof (run_step sl tl s h _ _ _ _ R S1) as R1.
    eexists _, _, [(LAnswer q, RpNone)].
    split; [exact R1|]. split; [reflexivity|]. split; [auto|].
    eapply Fin; [exact R1|]. unfold answer; sproj. apply in_app_iff; right; now left.
  - assert (S1 : step s (LTimeoutAnswer q) = Some (answer q RespTimeout
                  (set_fut (del q (s_fut s)) (set_pend (del q (s_pend s)) s)), RpNone, []))
      by (cbn [step]; now rewrite G).
    pose proof (run_step sl tl s h _ _ _ _ R S1) as R1.
    eexists _, _, [(LTimeoutAnswer q, RpNone)].
    split; [exact R1|]. split; [reflexivity|]. split; [auto|].
    eapply Fin; [exact R1|]. unfold answer; sproj. apply in_app_iff; right; now left.
Qed.

(* ---- C36: the snapshot ---- *)

Lemma registered_unique sl tl s h : run sl tl s h -> well_keyed h -> forall sid m1 m2,
  registered h sid m1 -> registered h sid m2 -> m1 = m2.
Proof.
  intros R Wk sid m1 m2 A B. pose proof (SInv_run _ _ _ _ R Wk) as SI.
  apply (si_reg _ _ _ _ SI) in A as [e1 A]. apply (si_reg _ _ _ _ SI) in B as [e2 B]. congruence.
Qed.

Lemma snapshot_value sl tl s h a v : run sl tl s h -> well_keyed h ->
  (settings_snapshot s a = Some v <->
   (exists p, reported h a p v) \/
   ((forall p w, ~ reported h a p w) /\ exists sid, declared h sid a v)).
Proof.
  intros R Wk. pose proof (SInv_run _ _ _ _ R Wk) as SI. pose proof (CInv_run _ _ _ _ R) as I.
  unfold settings_snapshot. split.
  - destruct (get a (s_set s)) as [[v0 ss [p|]]|] eqn:G; cbn; [| |discriminate].
    + intros [= ->]. left. exists p. apply (si_rep _ _ _ _ SI). eauto.
    + intros [= ->]. right. split.
      * intros p w K. apply (si_rep _ _ _ _ SI) in K as [ss' K]. congruence.
      * destruct (si_init _ _ _ _ SI a _ G eq_refl) as [sid [md [c [_ [B [C D]]]]]].
        exists sid, md, c. split; [now apply (si_reg _ _ _ _ SI)|]. auto.
  - intros [[p K]|[N [sid [md [c [A [B C]]]]]]].
    + apply (si_rep _ _ _ _ SI) in K as [ss K]. now rewrite K.
    + apply (si_reg _ _ _ _ SI) in A.
      assert (D : describes_in (s_clients s) sid a).
      { exists md. split; [assumption|]. eapply get_Some_key; eauto. }
      destruct (proj1 (si_sess _ _ _ _ SI sid a) D) as [st [G E]]. rewrite G. cbn.
      destruct (st_proc st) as [p|] eqn:P.
      * exfalso. apply (N p (st_value st)). apply (si_rep _ _ _ _ SI). exists (st_sess st).
        destruct st; cbn in *; now subst.
      * destruct (si_init _ _ _ _ SI a st G P) as [sid' [md' [c' [E' [A' [B' C']]]]]].
        assert (sid' = sid) by congruence. subst sid'.
        destruct A as [e1 A]. destruct A' as [e2 A']. congruence.
Qed.

(* ---- C29: a session goes ---- *)

Definition no_session_of (l : label) : option nat :=
  match l with LSessClear sid | LSessGone sid => Some sid | _ => None end.

Lemma session_removed sl tl s h l sid s' r w : run sl tl s h -> well_keyed h ->
  (l = LSessClear sid \/ l = LSessGone sid) -> step s l = Some (s', r, w) ->
  (forall f t o, listed_owner s' f t o <-> listed_owner s f t o /\ o <> Some sid) /\
  (forall q c, q <> sid -> (In (q, c) (s_clients s') <-> In (q, c) (s_clients s))) /\
  (forall a, ~ describes s' sid a) /\
  (forall a, settings_snapshot s' a =
     match settings_snapshot s a with
     | Some v => if get a (s_set s') then Some v else None | None => None end) /\
  (forall a, settings_snapshot s a <> None ->
     (settings_snapshot s' a = None <-> describes s sid a /\ forall p v, ~ reported h a p v)).
Proof.
  intros R Wk Hl E. pose proof (CInv_run _ _ _ _ R) as I. pose proof (SInv_run _ _ _ _ R Wk) as SI.
  pose proof (step_effect s l s' r w I E) as Ef.
  pose proof (owner_effect s l s' r I Ef) as O.
  assert (Wk' : well_keyed (h ++ [(l, r)])).
  { intros q md x K. apply in_app_iff in K as [K|[K|[]]]; [eapply Wk; eauto|].
    destruct Hl; subst; discriminate. }
  pose proof (run_step sl tl s h l s' r w R E) as R'.
  pose proof (CInv_run _ _ _ _ R') as I'. pose proof (SInv_run _ _ _ _ R' Wk') as SI'.
  assert (Cl : (forall q c, q <> sid -> (In (q, c) (s_clients s') <-> In (q, c) (s_clients s))) /\
               (forall a, ~ describes s' sid a) /\
               (exists x, s_set s' = x /\ forall a, get a x =
                   rss_entry sid (mem a (getd sid [] (s_owned s))) (get a (s_set s)))).
  { destruct Hl as [-> | ->]; inversion Ef; subst; try contradiction.
    - destruct H0 as [[? ?]|[[? ?]|[[? [? ?]]|[[? [? ?]]|[? [? [? ?]]]]]]]; discriminate.
    - sproj. split; [|split].
      + intros q c N. rewrite In_put by apply I. intuition congruence.
      + intros a [es' [md' [A B]]]. sproj_in A. apply In_put in A as [[_ A]|[N A]]; [discriminate|congruence|apply I].
      + eexists; split; [reflexivity|eassumption].
    - destruct H0 as [[? ?]|[[? ?]|[[? [? ?]]|[[? [? ?]]|[? [? [? ?]]]]]]]; discriminate.
    - sproj. split; [|split].
      + intros q c N. rewrite In_del. intuition congruence.
      + intros a [es' [md' [A B]]]. sproj_in A. apply In_del in A as [A _]. congruence.
      + eexists; split; [reflexivity|eassumption]. }
  destruct Cl as [Cl1 [Cl2 [x [Ex Gx]]]]. subst x.
  split; [|split; [exact Cl1|split; [exact Cl2|split]]].
  - intros f t o. change (listed_owner s' f t o) with (owner_of (s_dag s') (f, t) o). rewrite O.
    change (listed_owner s f t o) with (owner_of (s_dag s) (f, t) o).
    destruct Hl as [-> | ->]; destruct o as [q|]; cbn; intuition congruence.
  - intros a. unfold settings_snapshot. rewrite (Gx a).
    destruct (get a (s_set s)) as [st|]; cbn; [|reflexivity].
    destruct (_ && _); cbn; [|reflexivity]. unfold without_session. destruct (st_proc st); reflexivity.
  - intros a. unfold settings_snapshot. rewrite (Gx a).
    destruct (get a (s_set s)) as [st|] eqn:G; cbn [option_map rss_entry]; [intros _|congruence].
    rewrite (describes_in_iff s sid a I).
    destruct (mem a (getd sid [] (s_owned s)) && eqd (st_sess st) (Some sid)) eqn:B.
    + apply andb_true_iff in B as [B1 B2]. apply mem_In in B1. apply (si_own _ _ _ _ SI) in B1.
      unfold without_session. destruct (st_proc st) as [p|] eqn:P.
      * cbn. split; [discriminate|]. intros [_ N]. exfalso. apply (N p (st_value st)).
        apply (si_rep _ _ _ _ SI). exists (st_sess st). destruct st; cbn in *; now subst.
      * cbn. split; [|reflexivity]. intros _. split; [assumption|].
        intros p v K. apply (si_rep _ _ _ _ SI) in K as [ss K]. rewrite G in K. injection K as ->.
        discriminate.
    + cbn. split; [discriminate|]. intros [D N]. exfalso.
      apply andb_false_iff in B as [B|B].
      * apply mem_false in B. apply B. now apply (si_own _ _ _ _ SI).
      * apply (proj1 (eqd_false _ _)) in B. apply B.
        destruct (proj1 (si_sess _ _ _ _ SI sid a) D) as [st' [G' E']]. congruence.
Qed.
