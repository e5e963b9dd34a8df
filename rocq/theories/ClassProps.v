(** C72: what a unit runs, and what a component is made of, is what its class declares and
    inherits. *)
From Coq Require Import String List Bool Arith Lia.
From Verif Require Import Dict ClassModel ClassSpec ClassProofs.
Import ListNotations.

Section C72.
Variable w : world.
Hypothesis R : reachable w.
Variables (k : nat) (c : class) (n : string).
Hypothesis C : class_of w k = Some c.
Hypothesis N : n <> "SETTINGS"%string /\ n <> "STATE"%string.

(** Where a name is used in one way only, the task (thread function, stream, component) a class has
    under the name is the one that Python finds on the class under the name. *)
Theorem C72_tasks : used_one_way w k n is_unit task_in -> get n (k_tasks c) = found w k n task_in.
Proof.
  apply (registered_found w is_unit task_in k_tasks n (inv_reachable _ R)); try apply N; try assumption.
  - intros [] []; cbn; auto; contradiction.
  - intros k' c' C'. apply (co_tasks _ _ _ (inv_reachable _ R _ _ C')).
Qed.

Theorem C72_threads : used_one_way w k n is_unit thread_in -> get n (k_threads c) = found w k n thread_in.
Proof.
  apply (registered_found w is_unit thread_in k_threads n (inv_reachable _ R)); try apply N; try assumption.
  - intros [] []; cbn; auto; contradiction.
  - intros k' c' C'. apply (co_threads _ _ _ (inv_reachable _ R _ _ C')).
Qed.

Theorem C72_streams : used_one_way w k n is_component stream_in -> get n (k_streams c) = found w k n stream_in.
Proof.
  apply (registered_found w is_component stream_in k_streams n (inv_reachable _ R)); try apply N; try assumption.
  - intros [] []; cbn; auto; contradiction.
  - intros k' c' C'. apply (co_streams _ _ _ (inv_reachable _ R _ _ C')).
Qed.

Theorem C72_components : used_one_way w k n is_collection component_in -> get n (k_components c) = found w k n component_in.
Proof.
  apply (registered_found w is_collection component_in k_components n (inv_reachable _ R)); try apply N; try assumption.
  - intros [] []; cbn; auto; contradiction.
  - intros k' c' C'. apply (co_components _ _ _ (inv_reachable _ R _ _ C')).
Qed.

(** So with single inheritance, if every class that binds the name is a unit class and binds it to a
    task: the nearest one's is the task run. *)
Theorem C72_single_inheritance : single_inheritance w k ->
  (forall a v, ancestor w a k -> binds w a n v -> meta_is w is_unit a /\ task_in v <> None) ->
  get n (k_tasks c) = found w k n task_in.
Proof.
  intros SI H. apply C72_tasks. intros a A. split; [intros v; now apply H|]. intros _. now apply (single_agree w k n SI).
Qed.

(** Whatever the bases are: what the class itself declares, it has. *)
Theorem C72_declared f d : is_unit (k_meta c) = true -> get n (k_fields c) = Some (VFun f d) -> d_task d = true ->
  get n (k_tasks c) = Some f.
Proof.
  intros U G T. apply (registered_own w is_unit task_in k_tasks n k c (VFun f d)); try apply N; try assumption.
  - exact (inv_reachable _ R).
  - intros k' c' C'. apply (co_tasks _ _ _ (inv_reachable _ R _ _ C')).
  - cbn. now rewrite T.
Qed.

Theorem C72_declared_stream s v : is_component (k_meta c) = true -> get n (k_fields c) = Some v -> stream_in v = Some s ->
  get n (k_streams c) = Some s.
Proof.
  intros U G T. apply (registered_own w is_component stream_in k_streams n k c v); try apply N; try assumption.
  - exact (inv_reachable _ R).
  - intros k' c' C'. apply (co_streams _ _ _ (inv_reachable _ R _ _ C')).
Qed.

(** And it has nothing that no ancestor of it declares. *)
Theorem C72_nothing_else f : get n (k_tasks c) = Some f ->
  exists a d, ancestor w a k /\ meta_is w is_unit a /\ binds w a n (VFun f d) /\ d_task d = true.
Proof.
  intros G. destruct (registered_source w is_unit task_in k_tasks n (inv_reachable _ R)
    (fun k' c' C' => co_tasks _ _ _ (inv_reachable _ R _ _ C')) k c f C G) as [a [ca [v [A [Ca [U [Gv P]]]]]]].
  rewrite get_with_annotations in Gv by apply N. destruct v as [| | |f' d| |]; try discriminate. cbn in P.
  destruct (d_task d) eqn:T; [|discriminate]. injection P as ->. exists a, d. split; [assumption|]. split; [now exists ca|].
  split; [now exists ca|assumption].
Qed.

Theorem C72_no_other_stream s : get n (k_streams c) = Some s ->
  exists a v, ancestor w a k /\ meta_is w is_component a /\ binds w a n v /\ stream_in v = Some s.
Proof.
  intros G. destruct (registered_source w is_component stream_in k_streams n (inv_reachable _ R)
    (fun k' c' C' => co_streams _ _ _ (inv_reachable _ R _ _ C')) k c s C G) as [a [ca [v [A [Ca [U [Gv P]]]]]]].
  rewrite get_with_annotations in Gv by apply N. exists a, v. split; [assumption|]. split; [now exists ca|].
  split; [now exists ca|assumption].
Qed.
End C72.

Section C72_more.
Variable w : world.
Hypothesis R : reachable w.

(** With single inheritance, the main function is that of the nearest ancestor that declares one. *)
Theorem C72_main k c : class_of w k = Some c -> single_inheritance w k ->
  k_main c = nearest declared_main w (mro_of w k).
Proof. apply main_single. now apply inv_reachable. Qed.

Theorem C72_no_other_main k c f : class_of w k = Some c -> k_main c = Some f ->
  exists a ca, ancestor w a k /\ class_of w a = Some ca /\ declared_main ca = Some f.
Proof. apply main_source. now apply inv_reachable. Qed.

Lemma own_declared_settings s : own_type "SETTINGS" (with_annotations s) =
  match st_ann_settings s with
  | Some t => Some t
  | None => match get "SETTINGS"%string (st_fields s) with Some (VType t) => Some t | _ => None end
  end.
Proof.
  unfold own_type, with_annotations. destruct (st_ann_settings s), (st_ann_state s); rewrite ?(get_put_neq "SETTINGS"%string "STATE"%string) by discriminate;
    rewrite ?get_put_eq; reflexivity.
Qed.

Lemma own_declared_state s : own_type "STATE" (with_annotations s) =
  match st_ann_state s with
  | Some t => Some t
  | None => match get "STATE"%string (st_fields s) with Some (VType t) => Some t | _ => None end
  end.
Proof.
  unfold own_type, with_annotations. destruct (st_ann_state s); [now rewrite get_put_eq|].
  destruct (st_ann_settings s); rewrite ?(get_put_neq "STATE"%string "SETTINGS"%string) by discriminate; reflexivity.
Qed.

(** The type of the settings (state) is the one declared by the nearest ancestor that is a component
    and declares one; without any it is ez.Settings (ez.State). *)
Theorem C72_settings_type k c : class_of w k = Some c -> is_component (k_meta c) = true ->
  settings_type w k = Some (match nearest (declared_type "SETTINGS" st_ann_settings) w (mro_of w k) with Some t => t | None => ez_settings end).
Proof.
  apply type_found; [now apply inv_reachable|now apply rooted_reachable| | |].
  - intros c' K. unfold declared_type. now rewrite K.
  - intros k' c' C'. rewrite (co_settings _ _ _ (inv_reachable _ R _ _ C')). unfold declared_type.
    destruct (is_component (k_meta c')); [now rewrite own_declared_settings|reflexivity].
  - intros c0 C0. destruct (rooted_reachable _ R) as [[c1 [C1 [_ [_ [S [_ ST]]]]]] _]. assert (c0 = c1) as -> by congruence.
    split; [assumption|]. unfold declared_type. now rewrite ST.
Qed.

Theorem C72_state_type k c : class_of w k = Some c -> is_component (k_meta c) = true ->
  state_type w k = Some (match nearest (declared_type "STATE" st_ann_state) w (mro_of w k) with Some t => t | None => ez_state end).
Proof.
  apply type_found; [now apply inv_reachable|now apply rooted_reachable| | |].
  - intros c' K. unfold declared_type. now rewrite K.
  - intros k' c' C'. rewrite (co_state _ _ _ (inv_reachable _ R _ _ C')). unfold declared_type.
    destruct (is_component (k_meta c')); [now rewrite own_declared_state|reflexivity].
  - intros c0 C0. destruct (rooted_reachable _ R) as [[c1 [C1 [_ [_ [_ [S ST]]]]]] _]. assert (c0 = c1) as -> by congruence.
    split; [assumption|]. unfold declared_type. now rewrite ST.
Qed.

(** A stream (component) has one name, the same in every class that has it, and it is the name under
    which it is declared: so two names of a class never stand for the same stream. *)
Theorem C72_one_name k1 c1 n1 k2 c2 n2 s : class_of w k1 = Some c1 -> class_of w k2 = Some c2 ->
  (In (n1, s) (k_streams c1) -> In (n2, s) (k_streams c2) -> n1 = n2 /\ get s (w_streams w) = Some n1) /\
  (In (n1, s) (k_components c1) -> In (n2, s) (k_components c2) -> n1 = n2 /\ get s (w_components w) = Some n1).
Proof.
  intros C1 C2. destruct (named_steps w (reachable_steps _ R)) as [H1 H2]. split; intros I1 I2.
  - pose proof (H1 _ _ _ _ C1 I1). pose proof (H1 _ _ _ _ C2 I2). split; congruence.
  - pose proof (H2 _ _ _ _ C1 I1). pose proof (H2 _ _ _ _ C2 I2). split; congruence.
Qed.

(** A unit cannot declare a topic. *)
Theorem C72_no_topics_on_units s n x : st_meta s = MUnit -> get n (st_fields s) = Some (VTopic x) ->
  n <> "SETTINGS"%string -> n <> "STATE"%string -> snd (define w s) = None.
Proof.
  intros M G N1 N2. unfold define. rewrite M. destruct (linearize _ _ _); [|reflexivity].
  destruct (name_all _ _ _ _) as [sn [|]]; [|reflexivity]. cbn [negb]. destruct (base_main _ _ _); [|reflexivity].
  assert (has_topic (with_annotations s) = true) as ->; [|reflexivity].
  apply existsb_exists. exists (n, VTopic x). split; [|reflexivity]. apply get_In. now rewrite get_with_annotations.
Qed.

(** A class statement with one base succeeds exactly if its streams are new (in a collection, its
    components too), SETTINGS and STATE are types, and it has no topics if it is a unit. *)
Theorem C72_definable s b : proper w s -> st_bases s = [b] -> is_component (st_meta s) = true ->
  ((exists k, snd (define w s) = Some k) <->
   all_new s stream_in (w_streams w) /\
   (st_meta s = MCollection -> all_new s component_in (w_components w)) /\
   (forall n v, n = "SETTINGS"%string \/ n = "STATE"%string -> stands_for s n = Some v ->
      (exists t, v = VType t) \/ stream_in v <> None) /\
   (st_meta s = MUnit -> forall n x, stands_for s n <> Some (VTopic x))).
Proof.
  intros [[A1 [A2 A3]] _] B K.
  pose proof (NoDup_with_annotations s A1) as ND.
  assert (GW : forall n v, In (n, v) (with_annotations s) <-> stands_for s n = Some v).
  { intros n v. rewrite <- get_stands_for. split; [now apply In_get|apply get_In]. }
  destruct (A3 b) as [cb [CB LE]]; [rewrite B; now left|].
  destruct (linearize_one w b cb (inv_reachable _ R) CB) as [mro LZ].
  unfold define. rewrite B, LZ.
  destruct (name_all_ok pick_stream no_type (with_annotations s) (w_streams w) ND) as [SOK1 SOK2].
  destruct (name_all pick_stream no_type (with_annotations s) (w_streams w)) as [sn ok] eqn:EN. cbn [snd] in SOK1, SOK2.
  assert (SS : ok = true <-> all_new s stream_in (w_streams w) /\
     (forall n v, n = "SETTINGS"%string \/ n = "STATE"%string -> stands_for s n = Some v -> (exists t, v = VType t) \/ stream_in v <> None)).
  { split.
    - intros ->. destruct (SOK1 eq_refl) as [X1 [X2 X3]]. split; [split|].
      + intros n v x H P. apply GW in H. exact (X1 n v x H P).
      + intros n1 v1 n2 v2 x H1 H2. apply GW in H1. apply GW in H2. exact (X2 n1 v1 n2 v2 x H1 H2).
      + intros n v Hn H. apply GW in H. destruct (stream_in v) as [x|] eqn:P; [right; discriminate|left].
        pose proof (X3 n v H P) as Y. unfold no_type in Y.
        destruct v; try (eexists; reflexivity); destruct Hn as [-> | ->]; discriminate.
    - intros [[X1 X2] X3]. apply SOK2. split; [|split].
      + intros n v x H P. apply GW in H. exact (X1 n v x H P).
      + intros n1 v1 n2 v2 x H1 H2. apply GW in H1. apply GW in H2. exact (X2 n1 v1 n2 v2 x H1 H2).
      + intros n v H P. apply GW in H. unfold no_type.
        assert (Y : (n = "SETTINGS" \/ n = "STATE")%string -> exists t, v = VType t).
        { intros Hn. destruct (X3 n v Hn H) as [Y|Y]; [exact Y|]. change (stream_in v = None) in P. contradiction. }
        destruct (eqd n "SETTINGS"%string) eqn:E1; [destruct Y as [t ->]; [left; now apply eqd_true|reflexivity]|].
        destruct (eqd n "STATE"%string) eqn:E2; [destruct Y as [t ->]; [right; now apply eqd_true|reflexivity]|].
        now destruct v. }
  assert (NT : st_meta s = MUnit -> (has_topic (with_annotations s) = false <-> forall n x, stands_for s n <> Some (VTopic x))).
  { intros _. split.
    - intros H n x E. apply GW in E. assert (has_topic (with_annotations s) = true); [|congruence].
      apply existsb_exists. exists (n, VTopic x). auto.
    - intros H. destruct (has_topic (with_annotations s)) eqn:E; [exfalso|reflexivity].
      apply existsb_exists in E as [[n v] [I V]]. cbn in V. destruct v as [|x| | | |]; try discriminate. apply GW in I. exact (H n x I). }
  destruct (st_meta s) eqn:M; [discriminate| | |]; cbn beta iota zeta.
  - destruct ok; cbn [negb snd]; split.
    + intros _. destruct (proj1 SS eq_refl) as [X1 X2]. repeat (split; [first [exact X1|exact X2|discriminate]|]). discriminate.
    + intros _. eexists. reflexivity.
    + intros [k E]. discriminate.
    + intros [X1 [_ [X2 _]]]. assert (false = true) by (apply SS; auto). discriminate.
  - assert (BM : exists bm, base_main w [b] None = Some bm).
    { cbn. rewrite CB. destruct (k_meta cb); eexists; reflexivity. }
    destruct BM as [bm ->]. destruct ok; cbn [negb snd].
    + destruct (has_topic (with_annotations s)) eqn:HT; cbn [snd]; split.
      * intros [k E]. discriminate.
      * intros [_ [_ [_ X]]]. assert (true = false) by (apply (NT eq_refl); exact (X eq_refl)). discriminate.
      * intros _. destruct (proj1 SS eq_refl) as [X1 X2]. split; [exact X1|]. split; [discriminate|]. split; [exact X2|]. intros _. now apply NT.
      * intros _. eexists. reflexivity.
    + split; [intros [k E]; discriminate|]. intros [X1 [_ [X2 _]]]. assert (false = true) by (apply SS; auto). discriminate.
  - destruct (name_all_ok pick_component (fun _ _ => false) (with_annotations s) (w_components w) ND) as [COK1 COK2].
    destruct (name_all pick_component (fun _ _ => false) (with_annotations s) (w_components w)) as [cn okc] eqn:EC. cbn [snd] in COK1, COK2.
    assert (CC : okc = true <-> all_new s component_in (w_components w)).
    { split.
      - intros ->. destruct (COK1 eq_refl) as [X1 [X2 _]]. split.
        + intros n v x H P. apply GW in H. exact (X1 n v x H P).
        + intros n1 v1 n2 v2 x H1 H2. apply GW in H1. apply GW in H2. exact (X2 n1 v1 n2 v2 x H1 H2).
      - intros [X1 X2]. apply COK2. split; [|split; [|reflexivity]].
        + intros n v x H P. apply GW in H. exact (X1 n v x H P).
        + intros n1 v1 n2 v2 x H1 H2. apply GW in H1. apply GW in H2. exact (X2 n1 v1 n2 v2 x H1 H2). }
    destruct ok; cbn [negb snd].
    + destruct okc; cbn [negb snd]; split.
      * intros _. destruct (proj1 SS eq_refl) as [X1 X2]. split; [exact X1|]. split; [intros _; now apply CC|]. split; [exact X2|discriminate].
      * intros _. eexists. reflexivity.
      * intros [k E]. discriminate.
      * intros [_ [X _]]. assert (false = true) by (apply CC; auto). discriminate.
    + split; [intros [k E]; discriminate|]. intros [X1 [_ [X2 _]]]. assert (false = true) by (apply SS; auto). discriminate.
Qed.
End C72_more.

(* ---- examples ---- *)

Fixpoint nodupb {A} `{Dec A} (l : list A) : bool :=
  match l with [] => true | x :: r => negb (mem x r) && nodupb r end.

Lemma nodupb_NoDup {A} `{Dec A} (l : list A) : nodupb l = true -> NoDup l.
Proof.
  induction l as [|x l IH]; cbn; [constructor|]. rewrite andb_true_iff, negb_true_iff. intros [M T].
  constructor; [now apply mem_false|auto].
Qed.

Definition meta_leb (a b : meta) : bool :=
  match a, b with
  | MPlain, _ => true | MComponent, MPlain => false | MComponent, _ => true
  | MUnit, MUnit => true | MCollection, MCollection => true | _, _ => false
  end.

Definition properb (w : world) (s : stmt) : bool :=
  nodupb (keys (st_fields s)) && nodupb (st_bases s) &&
  forallb (fun b => match class_of w b with Some c => meta_leb (k_meta c) (st_meta s) | None => false end) (st_bases s) &&
  (negb (is_component (st_meta s)) ||
   existsb (fun b => match class_of w b with Some c => is_component (k_meta c) | None => false end) (st_bases s)).

Lemma properb_proper w s : properb w s = true -> proper w s.
Proof.
  unfold properb. rewrite !andb_true_iff. intros [[[H1 H2] H3] H4]. split; [split; [|split]|].
  - now apply nodupb_NoDup.
  - now apply nodupb_NoDup.
  - rewrite forallb_forall in H3. intros b Ib. specialize (H3 b Ib). destruct (class_of w b) as [c|]; [|discriminate].
    exists c. split; [reflexivity|]. destruct (k_meta c), (st_meta s); cbn in *; congruence || exact I.
  - intros K. rewrite K in H4. cbn in H4. apply existsb_exists in H4 as [b [Ib H]]. exists b.
    destruct (class_of w b) as [c|]; [|discriminate]. exists c. auto.
Qed.

Fixpoint program (w : world) (l : list stmt) : world * bool :=
  match l with [] => (w, true) | s :: r => if properb w s then program (fst (define w s)) r else (w, false) end.

Lemma program_reachable l : forall w, reachable w -> snd (program w l) = true -> reachable (fst (program w l)).
Proof.
  induction l as [|s l IH]; intros w R E; [assumption|]. cbn in *. destruct (properb w s) eqn:P; [|discriminate].
  apply IH; [|assumption]. constructor; [assumption|now apply properb_proper].
Qed.

Open Scope string_scope.

(** Unit (class 1), and the decorations. *)
Definition unit_stmt : stmt := Stmt MUnit [0] [] None None.
Definition task_f (f : nat) : value := VFun f (Deco true false false).
Definition main_f (f : nat) : value := VFun f (Deco false true false).
Definition bare_f (f : nat) : value := VFun f (Deco false false false).

(** A base with a stream, a task and a main function (class 2), one that overrides the task (3), and
    one of that that overrides the stream and has settings (4). *)
Definition chain : list stmt :=
  [unit_stmt;
   Stmt MUnit [1] [("INPUT", VStream 10); ("go", task_f 20); ("run", main_f 30)] None (Some 41);
   Stmt MUnit [2] [("go", task_f 21); ("SETTINGS", VType 40)] None None;
   Stmt MUnit [3] [("INPUT", VStream 11); ("extra", task_f 22)] None None].

Example C72_case : let w := fst (program start_world chain) in
  reachable w /\ single_inheritance w 4 /\ mro_of w 4 = [4; 3; 2; 1; 0] /\
  (forall a v, ancestor w a 4 -> binds w a "go" v -> meta_is w is_unit a /\ task_in v <> None) /\
  exists c, class_of w 4 = Some c /\ k_tasks c = [("go", 21); ("extra", 22)] /\ k_streams c = [("INPUT", 11)] /\
    k_main c = Some 30 /\ settings_type w 4 = Some 40 /\ state_type w 4 = Some 41.
Proof.
  cbv zeta. split; [apply program_reachable; [constructor|reflexivity]|].
  assert (M : mro_of (fst (program start_world chain)) 4 = [4; 3; 2; 1; 0]) by reflexivity.
  split; [|split; [assumption|split]].
  - intros a c A E. unfold ancestor in A. rewrite M in A.
    destruct A as [<-|[<-|[<-|[<-|[<-|[]]]]]]; vm_compute in E; injection E as <-; cbn; lia.
  - intros a v A [c [E G]]. unfold ancestor in A. rewrite M in A.
    destruct A as [<-|[<-|[<-|[<-|[<-|[]]]]]]; vm_compute in E; injection E as <-; vm_compute in G; try discriminate;
      injection G as <-; (split; [eexists; split; [reflexivity|reflexivity]|discriminate]).
  - eexists. split; [reflexivity|]. split; [reflexivity|]. split; [reflexivity|]. split; [reflexivity|]. split; reflexivity.
Qed.

(** Two bases with a task each: the class has both. *)
Definition two_bases : list stmt :=
  [unit_stmt; Stmt MUnit [1] [("a", task_f 20)] None None; Stmt MUnit [1] [("b", task_f 21)] None None;
   Stmt MUnit [2; 3] [] None None].

Example C72_two_bases_case : let w := fst (program start_world two_bases) in
  reachable w /\ used_one_way w 4 "a" is_unit task_in /\
  exists c, class_of w 4 = Some c /\ k_tasks c = [("a", 20); ("b", 21)].
Proof.
  cbv zeta. split; [apply program_reachable; [constructor|reflexivity]|]. split.
  - assert (M : mro_of (fst (program start_world two_bases)) 4 = [4; 2; 3; 1; 0]) by reflexivity.
    intros a A. unfold ancestor in A. rewrite M in A. split.
    + intros v [c [E G]]. destruct A as [<-|[<-|[<-|[<-|[<-|[]]]]]]; vm_compute in E; injection E as <-; vm_compute in G; try discriminate;
        injection G as <-; (split; [eexists; split; [reflexivity|reflexivity]|discriminate]).
    + intros _ c b1 b2 v1 v2 E I1 I2 A1 A2.
      destruct A as [<-|[<-|[<-|[<-|[<-|[]]]]]]; vm_compute in E; injection E as <-; cbn in I1, I2;
        repeat (destruct I1 as [<-|I1]); repeat (destruct I2 as [<-|I2]); try contradiction;
        vm_compute in A1, A2; congruence.
  - eexists. split; reflexivity.
Qed.

(** Base has a task; Left overrides it; Right does not; Both(Left, Right). *)
Definition diamond : list stmt :=
  [unit_stmt; Stmt MUnit [1] [("go", task_f 20)] None None; Stmt MUnit [2] [("go", task_f 21)] None None;
   Stmt MUnit [2] [] None None; Stmt MUnit [3; 4] [] None None].

(** C72 finding: with a diamond, a unit runs the overridden task, not the one that overrides it and
    that Python finds. *)
Theorem C72_diamond_runs_the_overridden_task_refuted : let w := fst (program start_world diamond) in
  reachable w /\ mro_of w 5 = [5; 3; 4; 2; 1; 0] /\ attribute w 5 "go" = Some (task_f 21) /\
  exists c, class_of w 5 = Some c /\ k_tasks c = [("go", 20)].
Proof.
  cbv zeta. split; [apply program_reachable; [constructor|reflexivity]|]. split; [reflexivity|]. split; [reflexivity|].
  eexists. split; reflexivity.
Qed.

(** C72 finding: overriding a task by a method without decorator does not override it: the unit goes
    on running the base's. *)
Theorem C72_undecorated_override_is_ignored_refuted : forall f g, let w := fst (program start_world
    [unit_stmt; Stmt MUnit [1] [("go", task_f f)] None None; Stmt MUnit [2] [("go", bare_f g)] None None]) in
  reachable w /\ attribute w 3 "go" = Some (bare_f g) /\ exists c, class_of w 3 = Some c /\ k_tasks c = [("go", f)].
Proof.
  intros f g. cbv zeta. split; [apply program_reachable; [constructor|reflexivity]|]. split; [reflexivity|].
  eexists. split; reflexivity.
Qed.

(** C72 finding: tasks and streams of a mixin that is not itself a Unit are found by Python, and are
    not the unit's. *)
Theorem C72_mixin_is_ignored_refuted : forall f s, let w := fst (program start_world
    [unit_stmt; Stmt MPlain [] [("go", task_f f); ("INPUT", VStream s)] None None; Stmt MUnit [2; 1] [] None None]) in
  reachable w /\ attribute w 3 "go" = Some (task_f f) /\ attribute w 3 "INPUT" = Some (VStream s) /\
  exists c, class_of w 3 = Some c /\ k_tasks c = [] /\ k_streams c = [].
Proof.
  intros f s. cbv zeta. split; [apply program_reachable; [constructor|reflexivity]|]. split; [reflexivity|]. split; [reflexivity|].
  eexists. split; [reflexivity|]. split; reflexivity.
Qed.

(** C72 finding: a main function is lost if a later base has none. *)
Theorem C72_main_is_lost_refuted : forall f, let w := fst (program start_world
    [unit_stmt; Stmt MUnit [1] [("run", main_f f)] None None; Stmt MUnit [1] [] None None; Stmt MUnit [2; 3] [] None None]) in
  reachable w /\ attribute w 4 "run" = Some (main_f f) /\ exists c, class_of w 4 = Some c /\ k_main c = None.
Proof.
  intros f. cbv zeta. split; [apply program_reachable; [constructor|reflexivity]|]. split; [reflexivity|].
  eexists. split; reflexivity.
Qed.

(** C72 finding: a class cannot be defined if two of its bases inherit the same main function. *)
Theorem C72_shared_main_is_refused_refuted : forall f, let w := fst (program start_world
    [unit_stmt; Stmt MUnit [1] [("run", main_f f)] None None; Stmt MUnit [2] [] None None; Stmt MUnit [2] [] None None]) in
  reachable w /\ linearize w 5 [3; 4] = Some [5; 3; 4; 2; 1; 0] /\ snd (define w (Stmt MUnit [3; 4] [] None None)) = None.
Proof.
  intros f. cbv zeta. split; [apply program_reachable; [constructor|reflexivity]|]. split; reflexivity.
Qed.

(** C72 finding: a stream cannot be declared again by a class that inherits it (INPUT = Base.INPUT). *)
Theorem C72_stream_is_not_redeclared_refuted : forall s, let w := fst (program start_world
    [unit_stmt; Stmt MUnit [1] [("INPUT", VStream s)] None None]) in
  reachable w /\ snd (define w (Stmt MUnit [2] [("INPUT", VStream s)] None None)) = None.
Proof.
  intros s. cbv zeta. split; [apply program_reachable; [constructor|reflexivity]|].
  cbn. destruct (dec s s); [reflexivity|congruence].
Qed.

Print Assumptions C72_tasks.
Print Assumptions C72_threads.
Print Assumptions C72_streams.
Print Assumptions C72_components.
Print Assumptions C72_single_inheritance.
Print Assumptions C72_declared.
Print Assumptions C72_declared_stream.
Print Assumptions C72_nothing_else.
Print Assumptions C72_no_other_stream.
Print Assumptions C72_main.
Print Assumptions C72_no_other_main.
Print Assumptions C72_settings_type.
Print Assumptions C72_state_type.
Print Assumptions C72_one_name.
Print Assumptions C72_no_topics_on_units.
Print Assumptions C72_definable.
Print Assumptions C72_diamond_runs_the_overridden_task_refuted.
Print Assumptions C72_undecorated_override_is_ignored_refuted.
Print Assumptions C72_mixin_is_ignored_refuted.
Print Assumptions C72_main_is_lost_refuted.
Print Assumptions C72_shared_main_is_refused_refuted.
Print Assumptions C72_stream_is_not_redeclared_refuted.
