(** C79: the graph commands of a graph service take effect one at a time, in an order that respects the
    calls; a call that comes back has had its effect; everybody comes back. *)
From Coq Require Import List NArith Bool Lia.
From Coq Require Import Strings.Byte.
From Verif Require Import CodecModel StreamModel DagModel DagSpec DagProofs DagProps ApiModel ApiSpec ApiProofs.
Import ListNotations.

Section C79.
(** Any graph that is pickled and unpickled faithfully, and a version that can be written. *)
Variable G : Type.
Variable connect_g : pystr -> pystr -> G -> G * bool.
Variable disconnect_g : pystr -> pystr -> G -> G.
Variable dumps : G -> bytes.
Variable loads : bytes -> option G.
Variable version : pystr.
Hypothesis greeting : encode_str version <> None.
Hypothesis pickle : forall g, loads (dumps g) = Some g.

Notation reachable := (reachable G connect_g disconnect_g dumps loads version).
Notation explains := (explains G connect_g disconnect_g dumps).
Notation at_rest := (at_rest G connect_g disconnect_g dumps loads version).
Notation goes_on := (goes_on G connect_g disconnect_g dumps loads version).

(** C79: after any calls, however their bytes arrive, whoever gives up and whatever connection is lost,
    the commands have taken effect one at a time, each on the graph the one before it left: [explains].
    What has been done for a command that has not taken effect yet is a beginning of what one call of
    sync() does. *)
Theorem C79_one_at_a_time :
  forall g l w, reachable g l w ->
  exists o, explains g l (history G w) (graph G w) (pubs G w) o /\
    (o = [] \/ exists i rest, In (Called G i Sync) (history G w) /\ (forall c a, ~ In (Took G i c a) (history G w)) /\
                              o ++ rest = duties G i Sync (pubs G w)).
Proof.
  intros g l w R. destruct (encode_str version) as [v|] eqn:E; [|congruence].
  pose proof (reachable_inv _ _ _ _ _ _ v E pickle g l w R) as I. destruct (i_explains _ _ _ _ _ _ _ _ I) as (o & X & U).
  exists o. split; [exact X|]. unfold under_way in U. destruct (line G w) as [|i r] eqn:Ln; [left; exact U|].
  destruct (srv G (conns G w i)) as [| |op|todo| | |] eqn:S; try (left; exact U). right.
  assert (L : i < count G w) by (apply (i_line _ _ _ _ _ _ _ _ I); rewrite Ln; left; reflexivity).
  destruct (Prep_syncing G connect_g disconnect_g dumps version v i _ _ _ (i_good _ _ _ _ _ _ _ _ I i L) S) as (W & _ & P).
  destruct U as (past & p & rest & -> & Pb & ->).
  exists i, ([Confirmed G i p] ++ flat_map (fun p => [Told G i p SYNC; Confirmed G i p]) rest).
  split; [apply (p_called _ _ _ _ _ P); symmetry; exact W|]. split; [exact (p_untaken _ _ _ _ _ P)|].
  cbn [duties]. rewrite Pb, flat_map_app, <- app_assoc. reflexivity.
Qed.

(** C79: every effect is that of a call that had been made, happens once, and when a call comes back
    what it reports has happened: [in_order]. *)
Theorem C79_in_order : forall g l w, reachable g l w -> in_order G (history G w).
Proof.
  intros g l w R. destruct (encode_str version) as [v|] eqn:E; [|congruence].
  exact (i_order _ _ _ _ _ _ _ _ (reachable_inv _ _ _ _ _ _ v E pickle g l w R)).
Qed.

(** C79: so a call of connect(), disconnect(), sync() or dag() that has returned, on a connection that
    was not lost, has taken effect before whatever is called later. *)
Theorem C79_returned_first_effect_first :
  forall g l w h1 h2 i c x j c',
  reachable g l w -> history G w = h1 ++ CameBack G i (Returned G x) :: h2 ->
  In (Called G i c) (history G w) -> c <> Pause -> c <> Resume -> ~ In (Lost G i) h1 ->
  In (Called G j c') h2 ->
  (exists a, In (Took G i c a) h1) /\ forall c'' a, ~ In (Took G j c'' a) h1.
Proof.
  intros g l w h1 h2 i c x j c' R E Hc Np Nr Nl Hj. pose proof (C79_in_order g l w R) as O.
  assert (Once : forall k a b, In (Called G k a) (history G w) -> In (Called G k b) (history G w) -> a = b).
  { destruct (encode_str version) as [v|] eqn:Ev; [|congruence].
    pose proof (reachable_inv _ _ _ _ _ _ v Ev pickle g l w R) as I. intros k a b A B.
    pose proof (i_good _ _ _ _ _ _ _ _ I k (i_marks _ _ _ _ _ _ _ _ I _ k A eq_refl)) as Hg.
    apply (g_called _ _ _ _ _ _ Hg) in A, B. congruence. }
  split.
  - destruct (O _ _ _ E) as [_ (d & Hd & F)].
    assert (d = c) as -> by (apply (Once i); [rewrite E; apply in_app_iff; left; exact Hd|exact Hc]).
    destruct x as [y|], c; cbn in F; try tauto; try congruence; try (destruct F as [F|F]; [eauto|tauto]); eauto.
  - intros c'' a X. apply in_split in X as (k1 & k2 & ->). rewrite <- app_assoc in E. cbn [app] in E.
    destruct (O _ _ _ E) as [Cj _]. apply in_split in Hj as (m1 & m2 & ->).
    assert (E2 : history G w = (k1 ++ Took G j c'' a :: k2 ++ CameBack G i (Returned G x) :: m1) ++ Called G j c' :: m2).
    { rewrite E. rewrite <- app_assoc. cbn [app]. rewrite <- app_assoc. reflexivity. }
    apply (O _ _ _ E2 c''). apply in_app_iff. left. exact Cj.
Qed.

(** The connections on which a request was left unfinished, because a topic could not be written, have
    been closed: by the garbage collector, or because they were lost. *)
Definition unfinished_are_closed (h : list (mark G)) : Prop :=
  forall i c, In (Called G i c) h -> ~ sendable c -> In (Dropped G i) h \/ In (Lost G i) h.

(** C79: everybody comes back, unless they ask for a graph that is too big to be sent. *)
Theorem C79_everybody_comes_back :
  forall g l w i c, reachable g l w -> at_rest w -> unfinished_are_closed (history G w) ->
  In (Called G i c) (history G w) ->
  (exists r, In (CameBack G i r) (history G w)) \/
  (c = Dag /\ exists g', In (NotSent G i g') (history G w)).
Proof.
  intros g l w i c R Q Gu Hc. destruct (encode_str version) as [v|] eqn:E; [|congruence].
  pose proof (reachable_inv _ _ _ _ _ _ v E pickle g l w R) as I.
  pose proof (i_marks _ _ _ _ _ _ _ _ I _ i Hc eq_refl) as L. pose proof (i_good _ _ _ _ _ _ _ _ I i L) as Hg.
  destruct (rest_back G connect_g disconnect_g dumps loads version v E pickle g l w I Q i Gu L) as [[r C]|[g' N]].
  - left. exists r. apply (g_back _ _ _ _ _ _ Hg), C.
  - right. split; [|eauto]. apply in_split in N as (h1 & h2 & N). pose proof (i_order _ _ _ _ _ _ _ _ I _ _ _ N) as [X _].
    assert (X' : In (Called G i Dag) (history G w)) by (rewrite N; apply in_app_iff; left; exact X).
    apply (g_called _ _ _ _ _ _ Hg) in X', Hc. congruence.
Qed.

(** C79: and when nothing moves any more every call that was not given up, on a connection that was not
    lost, has taken effect: pause() and resume() too, which do not wait for it.  Nothing is under way. *)
Theorem C79_takes_effect :
  forall g l w, reachable g l w -> at_rest w -> unfinished_are_closed (history G w) ->
  explains g l (history G w) (graph G w) (pubs G w) [] /\
  forall i c, In (Called G i c) (history G w) -> sendable c -> ~ In (Lost G i) (history G w) -> ~ In (GaveUp G i) (history G w) ->
  (exists a, In (Took G i c a) (history G w)) \/ (c = Dag /\ exists g', In (NotSent G i g') (history G w)).
Proof.
  intros g l w R Q Gu. destruct (encode_str version) as [v|] eqn:E; [|congruence].
  pose proof (reachable_inv _ _ _ _ _ _ v E pickle g l w R) as I. split.
  - destruct (i_explains _ _ _ _ _ _ _ _ I) as (o & X & U). unfold under_way in U.
    rewrite (rest_line G connect_g disconnect_g dumps loads version v E g l w I Q Gu) in U. subst o. exact X.
  - intros i c Hc Se Nl Ng.
    destruct (rest_taken G connect_g disconnect_g dumps loads version v E pickle g l w I Q i c Gu Hc Se Nl Ng) as [T|[g' N]]; [left; exact T|right].
    split; [|eauto]. pose proof (i_good _ _ _ _ _ _ _ _ I i (i_marks _ _ _ _ _ _ _ _ I _ i Hc eq_refl)) as Hg.
    apply in_split in N as (h1 & h2 & N). pose proof (i_order _ _ _ _ _ _ _ _ I _ _ _ N) as [X _].
    assert (X' : In (Called G i Dag) (history G w)) by (rewrite N; apply in_app_iff; left; exact X).
    apply (g_called _ _ _ _ _ _ Hg) in X', Hc. congruence.
Qed.

(** C79: as long as nobody calls anything and publishers answer, everything comes to rest. *)
Theorem C79_comes_to_rest : well_founded goes_on.
Proof. destruct (encode_str version) as [v|] eqn:E; [|congruence]. exact (rests _ _ _ _ _ _ v E pickle). Qed.
End C79.

(** ** With the graph of DagModel *)
Section Dag.
Variable name : pystr -> topic.
Variable dumps : dag -> bytes.
Variable loads : bytes -> option dag.
Variable version : pystr.
Hypothesis greeting : encode_str version <> None.
Hypothesis pickle : forall g, loads (dumps g) = Some g.

Notation reachable := (reachable dag (connect_dag name) (disconnect_dag name) dumps loads version).
Notation explains := (explains dag (connect_dag name) (disconnect_dag name) dumps).

Lemma requests_app h h' : requests name (h ++ h') = requests name h ++ requests name h'.
Proof. apply flat_map_app. Qed.

Lemma explains_requests l h g l' o : explains empty_dag l h g l' o -> (forall g' l', ~ In (Changed dag g' l') h) ->
  g = state_after (requests name h).
Proof.
  induction 1 as [|h g1 l1 o m E IH M|h g1 l1 o m E IH M|h g1 l1 i c a g2 E IH P|h g1 l1 i E IH B|h g1 l1 g2 l2 E IH]; intros N.
  - reflexivity.
  - rewrite requests_app, IH by (intros g' k K; apply (N g' k), in_app_iff; left; exact K). destruct m; try discriminate; cbn; now rewrite app_nil_r.
  - rewrite requests_app, IH by (intros g' k K; apply (N g' k), in_app_iff; left; exact K). destruct m; try discriminate; cbn; now rewrite app_nil_r.
  - specialize (IH ltac:(intros g' k K; apply (N g' k), in_app_iff; left; exact K)). rewrite requests_app.
    destruct P as [f t g g' P|f t g g' P|f t g| | | |]; cbn; rewrite ?app_nil_r; auto.
    + rewrite (proj1 (run_snoc _ _)), <- IH. unfold connect_dag in P. cbn. destruct (add_edge (name f) (name t) None g). now injection P as <- _.
    + rewrite (proj1 (run_snoc _ _)), <- IH. unfold connect_dag in P. cbn. destruct (add_edge (name f) (name t) None g). now injection P as <- _.
    + rewrite (proj1 (run_snoc _ _)), <- IH. unfold disconnect_dag. cbn. now destruct (remove_edge (name f) (name t) None g).
  - rewrite requests_app, IH by (intros g' k K; apply (N g' k), in_app_iff; left; exact K). cbn. now rewrite app_nil_r.
  - exfalso. apply (N g2 l2), in_app_iff. right. left. reflexivity.
Qed.

Lemma explains_took l h g l' o : explains empty_dag l h g l' o -> forall h1 i c a h2, h = h1 ++ Took dag i c a :: h2 ->
  exists g1 l1 g2 o', explains empty_dag l h1 g1 l1 o' /\ performs dag (connect_dag name) (disconnect_dag name) c g1 g2 a.
Proof.
  assert (Cut : forall (h h1 h2 : list (mark dag)) m m', h ++ [m] = h1 ++ m' :: h2 -> (h = h1 /\ m = m') \/ exists k, h = h1 ++ m' :: k).
  { intros h' h1 h2 m m' E. destruct h2 as [|x k] using rev_ind.
    - apply app_inj_tail in E as [-> ->]. left. auto.
    - clear IHk. rewrite app_comm_cons, app_assoc in E. apply app_inj_tail in E as [-> _]. right. eauto. }
  induction 1 as [|h g1 l1 o m E IH M|h g1 l1 o m E IH M|h g1 l1 i c a g2 E IH P|h g1 l1 i E IH B|h g1 l1 g2 l2 E IH]; intros h1 i' c' a' h2 Eq.
  - destruct h1; discriminate.
  - destruct (Cut _ _ _ _ _ Eq) as [[-> ->]|[k K]]; [discriminate|eauto].
  - destruct (Cut _ _ _ _ _ Eq) as [[-> ->]|[k K]]; [discriminate|eauto].
  - destruct (Cut _ _ _ _ _ Eq) as [[-> X]|[k K]]; [|eauto]. injection X as <- <- <-. exists g1, l1, g2. eauto.
  - destruct (Cut _ _ _ _ _ Eq) as [[-> X]|[k K]]; [discriminate|eauto].
  - destruct (Cut _ _ _ _ _ Eq) as [[-> X]|[k K]]; [discriminate|eauto].
Qed.

(** C79: with the graph of DagModel, starting empty, when only these calls change it: the graph is at
    any moment the one that the requests that took effect make, in that order; dag() returns it as it was
    when dag() took effect; and connect() raises CyclicException exactly when, at the moment it took
    effect, the edge would have closed a cycle. *)
Theorem C79_what_the_calls_see :
  forall l w, reachable empty_dag l w -> (forall g' l', ~ In (Changed dag g' l') (ApiModel.history dag w)) ->
  ApiModel.graph dag w = state_after (requests name (ApiModel.history dag w)) /\
  forall h1 i c a h2, ApiModel.history dag w = h1 ++ Took dag i c a :: h2 ->
  let before := state_after (requests name h1) in
  match c with
  | Connect f t => a = ADone dag /\ ~ (exists x, path_with before (name f) (name t) x x) \/
                   a = ACyclic dag /\ exists x, path_with before (name f) (name t) x x
  | Disconnect _ _ | Sync => a = ADone dag
  | Pause | Resume => a = ANone dag
  | Dag => a = ADag dag before
  end.
Proof.
  intros l w R N. destruct (C79_one_at_a_time _ _ _ _ _ _ greeting pickle _ _ _ R) as (o & E & _).
  split; [exact (explains_requests _ _ _ _ _ E N)|]. intros h1 i c a h2 Eq before.
  destruct (explains_took _ _ _ _ _ E _ _ _ _ _ Eq) as (g1 & l1 & g2 & o' & E1 & P).
  assert (B : g1 = before).
  { apply (explains_requests _ _ _ _ _ E1). intros g' k K. apply (N g' k). rewrite Eq. apply in_app_iff. left. exact K. }
  destruct P as [f t g g' P|f t g g' P|f t g| | | |]; auto; [| |now rewrite B]; rewrite B in P; clear g B E1; unfold connect_dag in P.
  - left. split; [reflexivity|]. intros X. apply (C24_refused_iff_it_would_make_a_cycle (requests name h1) (name f) (name t) None) in X.
    cbn in X. fold before in X. destruct (add_edge (name f) (name t) None before) as [d r]. cbn in X. injection X as ->. discriminate.
  - right. split; [reflexivity|]. apply (C24_refused_iff_it_would_make_a_cycle (requests name h1) (name f) (name t) None).
    cbn. fold before. destruct (add_edge (name f) (name t) None before) as [d r]. destruct r; [discriminate|discriminate|reflexivity].
Qed.
End Dag.

(** ** A graph with one edge, for the findings and the case *)
Definition A1 : pystr := [97%N].
Definition B1 : pystr := [98%N].
Definition bad : pystr := [55296%N].                     (* a lone surrogate *)
(** The edge from a to b is there or not; the edge from b to a would then be a cycle. *)
Definition connect1 (f t : pystr) (g : bool) : bool * bool :=
  match f with [97%N] => (true, true) | _ => (g, negb g) end.
Definition disconnect1 (f t : pystr) (g : bool) : bool := match f with [97%N] => false | _ => g end.
Definition dumps1 (g : bool) : bytes := [if g then x01 else x00].
Definition loads1 (b : bytes) : option bool := match b with [x00] => Some false | [x01] => Some true | _ => None end.
Definition version1 : pystr := [49%N].
Lemma pickle1 g : loads1 (dumps1 g) = Some g. Proof. now destruct g. Qed.
Lemma greeting1 : encode_str version1 <> None. Proof. discriminate. Qed.

Notation steps1 := (steps bool connect1 disconnect1 dumps1 loads1 version1).
Notation reachable1 := (reachable bool connect1 disconnect1 dumps1 loads1 version1).
Notation at_rest1 := (at_rest bool connect1 disconnect1 dumps1 loads1 version1).

(** The greeting, 9 bytes, is written, arrives and is read; the request is written. *)
Definition ask (i : nat) : list (event bool) := [Server bool i; ArriveDown bool i 9; Client bool i].

(** At rest, decided for the connections that there are. *)
Lemma at_rest_by (w : world bool) :
  (forall i, i < count bool w ->
     up bool (conns bool w i) = [] /\ down bool (conns bool w i) = [] /\
     server_step bool connect1 disconnect1 dumps1 version1 i w = None /\ client_step bool loads1 i w = None /\
     forall todo, srv bool (conns bool w i) <> Syncing todo) -> at_rest1 w.
Proof.
  intros H e B. destruct e as [c|i n|i n|i|i|i|i|i|i n|g l]; try discriminate; cbn [step];
    destruct (PeanoNat.Nat.ltb_spec i (count bool w)) as [L|]; try reflexivity; destruct (H i L) as (H1 & H2 & H3 & H4 & H5); auto.
  - rewrite H1. destruct n; reflexivity.
  - rewrite H2. destruct n; reflexivity.
  - destruct (srv bool (conns bool w i)) as [| |op|[|p todo]| | |]; try reflexivity. exfalso. exact (H5 _ eq_refl).
Qed.

(** C79 finding: connect() returns without an error although nothing was connected, when the
    connection is lost before the answer: it takes the end of the connection for the answer. *)
Theorem C79_returned_connect_took_effect_refuted :
  ~ (forall w f t i, reachable1 false [] w -> In (Called bool i (Connect f t)) (history bool w) ->
     In (CameBack bool i (Returned bool None)) (history bool w) ->
     exists a, In (Took bool i (Connect f t) a) (history bool w)).
Proof.
  intros H. destruct (steps1 (start bool false []) ([Call bool (Connect A1 B1)] ++ ask 0 ++ [Lose bool 0 0; Client bool 0])) as [w|] eqn:E;
    [|vm_compute in E; discriminate].
  assert (R : reachable1 false [] w) by (eexists; exact E). vm_compute in E. injection E as <-.
  destruct (H _ A1 B1 0 R) as [a Ta]; [left; reflexivity|right; right; left; reflexivity|].
  destruct Ta as [X|[X|[X|[]]]]; discriminate.
Qed.

(** C79 finding: resume() called after pause() has returned may take effect before it, so that the
    publishers end up paused: each uses a connection of its own and does not wait for an answer. *)
Theorem C79_pause_then_resume_refuted :
  ~ (forall w h1 h2 i j, reachable1 false [7] w -> at_rest1 w ->
     history bool w = h1 ++ CameBack bool i (Returned bool None) :: h2 ->
     In (Called bool i Pause) h1 -> In (Called bool j Resume) h2 ->
     exists k1 k2, history bool w = k1 ++ Told bool j 7 RESUME :: k2 /\ ~ In (Told bool i 7 PAUSE) k2).
Proof.
  intros H. destruct (steps1 (start bool false [7])
      ([Call bool Pause] ++ ask 0 ++ [Call bool Resume] ++ ask 1 ++
       [ArriveUp bool 1 1; ArriveUp bool 0 1; Server bool 1; Server bool 1; Server bool 1; Server bool 0; Server bool 0; Server bool 0])) as [w|] eqn:E;
    [|vm_compute in E; discriminate].
  assert (R : reachable1 false [7] w) by (eexists; exact E). vm_compute in E. injection E as <-.
  destruct (H _ [Called bool 0 Pause]
    [Called bool 1 Resume; CameBack bool 1 (Returned bool None); Told bool 1 7 RESUME; Took bool 1 Resume (ANone bool); Told bool 0 7 PAUSE; Took bool 0 Pause (ANone bool)]
    0 1 R) as (k1 & k2 & X & N).
  - apply at_rest_by. intros i L. cbn in L. destruct i as [|[|i]]; [| |lia].
    all: (split; [vm_compute; reflexivity|split; [vm_compute; reflexivity|split; [vm_compute; reflexivity|split; [vm_compute; reflexivity|]]]]);
      intros todo; vm_compute; discriminate.
  - reflexivity.
  - left. reflexivity.
  - left. reflexivity.
  - cbn in X. destruct k1 as [|m1 [|m2 [|m3 [|m4 [|m5 [|m6 [|m7 [|m8 k1]]]]]]]]; cbn in X; try discriminate.
    + injection X as _ _ _ _ <-. apply N. right. left. reflexivity.
    + injection X as _ _ _ _ _ _ _ _ X. destruct k1; discriminate.
Qed.

(** C79 finding: a call whose topic cannot be written raises, but what it has written stays with the
    server, which waits for the rest and meanwhile serves nobody: other calls do not come back. *)
Theorem C79_everybody_else_comes_back_refuted :
  ~ (forall w i c, reachable1 false [] w -> at_rest1 w -> In (Called bool i c) (history bool w) -> sendable c ->
     exists r, In (CameBack bool i r) (history bool w)).
Proof.
  intros H. destruct (steps1 (start bool false [])
      ([Call bool (Connect bad B1)] ++ ask 0 ++ [ArriveUp bool 0 1; Server bool 0; Call bool (Connect A1 B1)] ++ ask 1 ++
       [ArriveUp bool 1 19; Server bool 1])) as [w|] eqn:E;
    [|vm_compute in E; discriminate].
  assert (R : reachable1 false [] w) by (eexists; exact E). vm_compute in E. injection E as <-.
  destruct (H _ 1 (Connect A1 B1) R) as [r Hr].
  - apply at_rest_by. intros i L. cbn in L. destruct i as [|[|i]]; [| |lia].
    all: (split; [vm_compute; reflexivity|split; [vm_compute; reflexivity|split; [vm_compute; reflexivity|split; [vm_compute; reflexivity|]]]]);
      intros todo; vm_compute; discriminate.
  - right. right. left. reflexivity.
  - split; discriminate.
  - destruct Hr as [X|[X|[X|[]]]]; discriminate.
Qed.

(** C79 finding: sync() with a time-out comes back when it expires, but the server goes on waiting for
    the publisher, and as long as that does not answer serves nobody, even if the caller has closed
    its connection. *)
Theorem C79_time_out_frees_the_others_refuted :
  ~ (forall w i, reachable1 false [7] w -> (forall e, by_itself bool e = true -> (forall k, e <> Confirm bool k) ->
       step bool connect1 disconnect1 dumps1 loads1 version1 w e = None) ->
     In (Called bool i (Connect A1 B1)) (history bool w) ->
     (forall k, In (Called bool k Sync) (history bool w) -> In (GaveUp bool k) (history bool w) /\ In (Dropped bool k) (history bool w)) ->
     exists r, In (CameBack bool i r) (history bool w)).
Proof.
  intros H. destruct (steps1 (start bool false [7])
      ([Call bool Sync] ++ ask 0 ++ [ArriveUp bool 0 1; Server bool 0; Server bool 0; GiveUp bool 0; Collect bool 0; Call bool (Connect A1 B1)] ++ ask 1 ++
       [ArriveUp bool 1 19; Server bool 1])) as [w|] eqn:E;
    [|vm_compute in E; discriminate].
  assert (R : reachable1 false [7] w) by (eexists; exact E). vm_compute in E. injection E as <-.
  destruct (H _ 1 R) as [r Hr].
  - intros e B N. destruct e as [c|i n|i n|i|i|i|i|i|i n|g l]; try discriminate; [| | |exfalso; exact (N i eq_refl)|];
      (destruct i as [|[|i]]; [| |vm_compute; reflexivity]); try (vm_compute; reflexivity); destruct n; vm_compute; reflexivity.
  - do 5 right. left. reflexivity.
  - intros k K. cbn in K. assert (k = 0) as ->.
    { repeat (destruct K as [K|K]; [try discriminate; now injection K|]). destruct K. }
    split; [do 2 right; left; reflexivity|do 4 right; left; reflexivity].
  - cbn in Hr. repeat (destruct Hr as [Hr|Hr]; [discriminate|]). destruct Hr.
Qed.

(** Two callers connect a to b and b to a at the same time, a third asks for the graph, a fourth waits
    for the publishers: everybody comes back, the second with CyclicException because the first was
    served before it, the third with the edge. *)
Example C79_case :
  exists w, reachable1 false [7; 8] w /\ at_rest1 w /\ unfinished_are_closed bool (history bool w) /\
  history bool w =
   [Called bool 0 (Connect A1 B1); Called bool 1 (Connect B1 A1); Called bool 2 Dag; Called bool 3 Sync;
    Took bool 0 (Connect A1 B1) (ADone bool); Took bool 1 (Connect B1 A1) (ACyclic bool);
    CameBack bool 1 (RaisedCyclic bool); CameBack bool 0 (Returned bool None);
    Told bool 3 7 SYNC; Confirmed bool 3 7; Told bool 3 8 SYNC; Confirmed bool 3 8; Took bool 3 Sync (ADone bool);
    Took bool 2 Dag (ADag bool true); CameBack bool 2 (Returned bool (Some true)); CameBack bool 3 (Returned bool None)].
Proof.
  destruct (steps1 (start bool false [7; 8])
    ([Call bool (Connect A1 B1); Call bool (Connect B1 A1); Call bool Dag; Call bool Sync] ++ ask 0 ++ ask 1 ++ ask 2 ++ ask 3 ++
     [ArriveUp bool 0 1; Server bool 0; ArriveUp bool 1 19; Server bool 1; ArriveUp bool 0 18; Server bool 0; ArriveUp bool 3 1; Server bool 3;
      Server bool 0; Server bool 1; ArriveDown bool 1 1; Client bool 1; Server bool 1; ArriveDown bool 0 1; Client bool 0;
      Server bool 3; Confirm bool 3; ArriveUp bool 2 1; Server bool 2; Confirm bool 3; Server bool 3; Server bool 2; Server bool 2;
      ArriveDown bool 2 11; Client bool 2; ArriveDown bool 3 1; Client bool 3])) as [w|] eqn:E; [|vm_compute in E; discriminate].
  exists w. split; [eexists; exact E|]. vm_compute in E. injection E as <-.
  split; [|split; [|reflexivity]].
  - apply at_rest_by. intros i L. cbn in L. destruct i as [|[|[|[|i]]]]; [| | | |lia].
    all: (split; [vm_compute; reflexivity|split; [vm_compute; reflexivity|split; [vm_compute; reflexivity|split; [vm_compute; reflexivity|]]]]);
      intros todo; vm_compute; discriminate.
  - intros i c K S. exfalso. cbn in K.
    repeat (destruct K as [K|K]; [try discriminate; injection K as <- <-; apply S; (exact I || split; discriminate)|]). destruct K.
Qed.

(** The name of a topic made of one-byte characters. *)
Definition name1 (p : pystr) : topic := fold_right (fun n s => String.String (Ascii.ascii_of_N n) s) String.EmptyString p.

Example C79_dag_case : forall dumps loads,
  exists w, reachable dag (connect_dag name1) (disconnect_dag name1) dumps loads version1 empty_dag [] w /\
  (forall g' l', ~ In (Changed dag g' l') (ApiModel.history dag w)) /\
  In (Took dag 0 (Connect A1 B1) (ADone dag)) (ApiModel.history dag w) /\
  In (Took dag 1 (Connect B1 A1) (ACyclic dag)) (ApiModel.history dag w) /\
  In (Took dag 2 (Disconnect A1 B1) (ADone dag)) (ApiModel.history dag w).
Proof.
  intros dumps loads. set (ask' := fun i => [Server dag i; ArriveDown dag i 9; Client dag i; ArriveUp dag i 19; Server dag i; Server dag i; Server dag i]).
  destruct (steps dag (connect_dag name1) (disconnect_dag name1) dumps loads version1 (start dag empty_dag [])
    ([Call dag (Connect A1 B1); Call dag (Connect B1 A1); Call dag (Disconnect A1 B1)] ++ ask' 0 ++ ask' 1 ++ ask' 2)) as [w|] eqn:E;
    [|vm_compute in E; discriminate].
  exists w. split; [eexists; exact E|]. vm_compute in E. injection E as <-. cbn [ApiModel.history]. split.
  - intros g' l' X. repeat (destruct X as [X|X]; [discriminate|]). destruct X.
  - split; [do 3 right; left; reflexivity|]. split; [do 4 right; left; reflexivity|do 5 right; left; reflexivity].
Qed.

Print Assumptions C79_one_at_a_time.
Print Assumptions C79_in_order.
Print Assumptions C79_returned_first_effect_first.
Print Assumptions C79_everybody_comes_back.
Print Assumptions C79_takes_effect.
Print Assumptions C79_comes_to_rest.
Print Assumptions C79_what_the_calls_see.
Print Assumptions C79_returned_connect_took_effect_refuted.
Print Assumptions C79_pause_then_resume_refuted.
Print Assumptions C79_everybody_else_comes_back_refuted.
Print Assumptions C79_time_out_frees_the_others_refuted.
