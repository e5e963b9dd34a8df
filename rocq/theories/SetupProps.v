(** C74: a unit is set up once, with the settings it was last given and a state of its own. *)
From Coq Require Import String List Bool Arith Lia.
From Verif Require Import Dict SetupModel.
Import ListNotations.
Open Scope string_scope.

(* ---- specification ---- *)

(** What a program does to the unit [i]. *)
Definition applies_to (i : nat) (o : op) : Prop := exists s, o = Apply i s.
Definition sets_up (i : nat) (o : op) : Prop := exists init, o = SetupUnit i init.

(** The unit [i] exists, of class [c], with settings [s] ([None]: it has not been given any). *)
Definition has_unit (p : proc) (i : nat) (c : uclass) (s : option nat) : Prop :=
  exists u, nth_error (p_units p) i = Some (c, u) /\ ui_settings u = s.

(** The state of the unit [i] as the program sees it: the value of an attribute. *)
Definition state_has (p : proc) (i : nat) (n : string) (v : nat) : Prop :=
  exists c u a, nth_error (p_units p) i = Some (c, u) /\ ui_state u = Some a /\ state_attr c a n = Some v.

(** What [initialize] finds in STATE: the object of each field with a default, a new object, from
    [free] on, for each field with a default factory, and nothing else. *)
Definition fresh_state (c : uclass) (free : nat) (a : list (string * nat)) : Prop :=
  (forall n d, In (n, Default d) (uc_fields c) -> state_attr c a n = Some d) /\
  (forall n, In (n, Factory) (uc_fields c) -> exists v, state_attr c a n = Some v /\ free <= v) /\
  (forall n, In (n, NoDefault) (uc_fields c) -> state_attr c a n = None) /\
  NoDup (map snd a).

(** The names of the fields of a dataclass differ. *)
Definition class_ok (c : uclass) : Prop := NoDup (map fst (uc_fields c)).
Definition classes_ok (l : list op) : Prop := forall c a k s, In (New c a k s) l -> class_ok c.

(* ---- lemmas ---- *)

Lemma run_snoc free l o : run free (l ++ [o]) = step (run free l) o.
Proof. unfold run. now rewrite fold_left_app. Qed.

Lemma nth_set_eq {A} (l : list A) i x y : nth_error l i = Some y -> nth_error (set_nth l i x) i = Some x.
Proof. revert i. induction l as [|z l IH]; intros [|i]; cbn; try discriminate; auto. Qed.

Lemma nth_set_neq {A} (l : list A) i j x : i <> j -> nth_error (set_nth l i x) j = nth_error l j.
Proof. revert i j. induction l as [|z l IH]; intros [|i] [|j] H; cbn; try reflexivity; try congruence. apply IH. congruence. Qed.

Lemma length_set {A} (l : list A) i x : length (set_nth l i x) = length l.
Proof. revert i. induction l as [|z l IH]; intros [|i]; cbn; auto. Qed.

Lemma factories_bounds fs k : let (a, k') := factories fs k in
  k <= k' /\ NoDup (map snd a) /\ (forall n v, In (n, v) a -> k <= v < k' /\ In (n, Factory) fs) /\
  (forall n, In (n, Factory) fs -> exists v, In (n, v) a).
Proof.
  revert k. induction fs as [|[n d] fs IH]; intros k; cbn [factories].
  - split; [lia|]. split; [constructor|]. split; [intros ? ? []|intros ? []].
  - destruct d as [|d|].
    1,2: specialize (IH k); destruct (factories fs k) as [a k']; destruct IH as [L [D [B E]]];
      split; [exact L|]; split; [exact D|]; split;
      [intros m v H; destruct (B m v H); split; [assumption|now right]
      |intros m [H|H]; [congruence|now apply E]].
    specialize (IH (S k)). destruct (factories fs (S k)) as [a k']. destruct IH as [L [D [B E]]].
    split; [lia|]. split; [|split].
    + cbn. constructor; [|exact D]. intros H. apply in_map_iff in H as [[m v] [X H]]. cbn in X. subst v. apply B in H. lia.
    + intros m v [H|H]; [injection H as <- <-; split; [lia|now left]|]. destruct (B m v H). split; [lia|now right].
    + intros m [H|H]; [injection H as <-; exists k; now left|]. destruct (E m H) as [v X]. exists v. now right.
Qed.

Lemma factories_fresh c k a k' : class_ok c -> factories (uc_fields c) k = (a, k') -> fresh_state c k a.
Proof.
  intros OK E. pose proof (factories_bounds (uc_fields c) k) as B. rewrite E in B. destruct B as [L [D [B F]]].
  assert (U : forall n d1 d2, In (n, d1) (uc_fields c) -> In (n, d2) (uc_fields c) -> d1 = d2).
  { intros n d1 d2 H1 H2. pose proof (In_get _ _ _ OK H1). pose proof (In_get _ _ _ OK H2). congruence. }
  split; [|split; [|split; [|exact D]]].
  - intros n d H. unfold state_attr. destruct (get n a) as [v|] eqn:G.
    + apply get_In in G. apply B in G as [_ G]. discriminate (U _ _ _ G H).
    + now rewrite (In_get _ _ _ OK H).
  - intros n H. destruct (F n H) as [v I]. destruct (get n a) as [v'|] eqn:G.
    + exists v'. unfold state_attr. rewrite G. split; [reflexivity|]. apply get_In in G. apply B in G. lia.
    + exfalso. rewrite get_None in G. apply G. apply in_map_iff. exists (n, v). auto.
  - intros n H. unfold state_attr. destruct (get n a) as [v|] eqn:G.
    + apply get_In in G. apply B in G as [_ G]. discriminate (U _ _ _ G H).
    + now rewrite (In_get _ _ _ OK H).
Qed.

(** What a step does to the units. *)
Lemma step_units p o i c u : nth_error (p_units p) i = Some (c, u) ->
  exists u', nth_error (p_units (step p o)) i = Some (c, u') /\
    (~ applies_to i o -> ui_settings u' = ui_settings u /\ ui_applied u' = ui_applied u) /\
    (forall s, o = Apply i s -> u' = apply_settings u s) /\
    (~ sets_up i o -> ui_state u' = ui_state u) /\
    (forall init, o = SetupUnit i init -> ui_state u' <> None).
Proof.
  intros N. destruct o as [c' a' k' s'|j s|j init]; cbn [step].
  - destruct (construct c' a' k' s') as [u2|]; cbn [p_units].
    + exists u. rewrite nth_error_app1 by (apply nth_error_Some; congruence).
      repeat (split; [solve [auto|intros; discriminate|intros; split; reflexivity]|]). intros; discriminate.
    + exists u. split; [exact N|]. split; [auto|]. split; [intros; discriminate|]. split; [auto|intros; discriminate].
  - destruct (Nat.eq_dec j i) as [->|NE].
    + rewrite N. cbn [p_units]. exists (apply_settings u s). split; [eapply nth_set_eq; exact N|].
      split; [intros H; exfalso; apply H; now exists s|]. split; [intros s2 X; now injection X as ->|].
      split; [reflexivity|intros; discriminate].
    + exists u. split.
      * destruct (nth_error (p_units p) j) as [[c2 u2]|]; cbn [p_units]; [now rewrite nth_set_neq|exact N].
      * split; [auto|]. split; [intros s2 X; injection X as ? ?; congruence|]. split; [auto|intros; discriminate].
  - destruct (Nat.eq_dec j i) as [->|NE].
    + rewrite N. destruct (setup c init u (p_free p)) as [[[u' f'] e] call] eqn:S. cbn [p_units].
      exists u'. split; [eapply nth_set_eq; exact N|].
      assert (X : ui_settings u' = ui_settings u /\ ui_applied u' = ui_applied u /\ ui_state u' <> None).
      { unfold setup in S. destruct (ui_state u) as [st|] eqn:ST.
        - injection S as <- _ _ _. rewrite ST. repeat split; congruence.
        - destruct (factories (uc_fields c) (p_free p)) as [at0 f0]. cbn [ui_applied ui_settings] in S.
          destruct (ui_applied u) eqn:AP; cbn [negb] in S.
          + destruct (init (ui_settings u) at0) as [at1 [er|]]; injection S as <- _ _ _; cbn; repeat split; congruence.
          + injection S as <- _ _ _. cbn. repeat split; congruence. }
      destruct X as [X1 [X2 X3]]. split; [auto|]. split; [intros; discriminate|].
      split; [intros H; exfalso; apply H; now exists init|auto].
    + exists u. split.
      * destruct (nth_error (p_units p) j) as [[c2 u2]|]; [|exact N].
        destruct (setup c2 init u2 (p_free p)) as [[[u' f'] e] call]. cbn [p_units]. now rewrite nth_set_neq.
      * split; [auto|]. split; [intros; discriminate|]. split; [auto|]. intros i2 X. injection X as ? ?. congruence.
Qed.

Lemma step_units_inv p o i c u' : nth_error (p_units (step p o)) i = Some (c, u') ->
  (exists u, nth_error (p_units p) i = Some (c, u)) \/
  (i = length (p_units p) /\ exists a k s, o = New c a k s /\ construct c a k s = Some u').
Proof.
  destruct (nth_error (p_units p) i) as [[c0 u0]|] eqn:N.
  - intros H. destruct (step_units _ o _ _ _ N) as [u2 [H2 _]]. left. exists u0. congruence.
  - assert (LE : length (p_units p) <= i) by now apply nth_error_None.
    intros H. right. destruct o as [c' a' k' s'|j s|j init]; cbn [step] in H.
    + destruct (construct c' a' k' s') as [u2|] eqn:CO; cbn [p_units] in H; [|congruence].
      rewrite nth_error_app2 in H by exact LE. destruct (i - length (p_units p)) as [|d] eqn:D.
      * injection H as -> ->. split; [lia|]. now exists a', k', s'.
      * cbn in H. destruct d; discriminate.
    + exfalso. destruct (nth_error (p_units p) j) as [[c2 u2]|]; cbn [p_units] in H; [|congruence].
      assert (i < length (set_nth (p_units p) j (c2, apply_settings u2 s))) by (apply nth_error_Some; congruence).
      rewrite length_set in *. lia.
    + exfalso. destruct (nth_error (p_units p) j) as [[c2 u2]|]; [|congruence].
      destruct (setup c2 init u2 (p_free p)) as [[[u3 f'] e] call]. cbn [p_units] in H.
      assert (i < length (set_nth (p_units p) j (c2, u3))) by (apply nth_error_Some; congruence).
      rewrite length_set in *. lia.
Qed.

Lemma construct_shape c a k s u : construct c a k s = Some u ->
  ui_state u = None /\ (ui_applied u = true <-> ui_settings u <> None).
Proof.
  assert (A : forall x, ui_state (apply_settings blank x) = None /\
            (ui_applied (apply_settings blank x) = true <-> ui_settings (apply_settings blank x) <> None)).
  { intros x. cbn. repeat split; congruence. }
  unfold construct. destruct s as [s|]; [intros H; injection H as <-; apply A|].
  destruct a as [|x a].
  - destruct k as [|kv k].
    + destruct (uc_settings c [] []); intros H; try discriminate; injection H as <-; [apply A|].
      cbn. repeat split; congruence.
    + destruct (uc_settings c [] (kv :: k)); intros H; try discriminate; injection H as <-; apply A.
  - destruct (uc_instance c x); [intros H; injection H as <-; apply A|].
    destruct (uc_settings c (x :: a) k); intros H; try discriminate; injection H as <-; apply A.
Qed.

(** The program [l] has set up the unit [i] after making it. *)
Definition was_set_up (free : nat) (l : list op) (i : nat) : Prop :=
  exists l1 init l2, l = (l1 ++ SetupUnit i init :: l2)%list /\ i < length (p_units (run free l1)).

(** The invariant of a unit. *)
Lemma unit_inv free l i c u : nth_error (p_units (run free l)) i = Some (c, u) ->
  (ui_applied u = true <-> ui_settings u <> None) /\
  (ui_state u <> None <-> was_set_up free l i) /\
  exists a k s, In (New c a k s) l.
Proof.
  revert c u. induction l as [|o l IH] using rev_ind; intros c u; [destruct i; discriminate|].
  rewrite run_snoc. intros H. destruct (step_units_inv _ _ _ _ _ H) as [[u0 N]|[-> [a [k [s [-> CO]]]]]].
  - destruct (IH _ _ N) as [A [S [a [k [s I]]]]].
    destruct (step_units _ o _ _ _ N) as [u' [H' [K1 [K2 [K3 K4]]]]].
    assert (u' = u) by congruence. subst u'. clear H'. split; [|split].
    + destruct o as [c' a' k' s'|j s'|j init].
      1,3: destruct K1 as [-> ->]; [intros [? ?]; discriminate|exact A].
      destruct (Nat.eq_dec j i) as [->|NE].
      * rewrite (K2 s' eq_refl). cbn. split; congruence.
      * destruct K1 as [-> ->]; [intros [x X]; injection X as ? ?; congruence|exact A].
    + assert (LT : i < length (p_units (run free l))) by (apply nth_error_Some; congruence).
      split.
      * intros ST. assert (Q : sets_up i o \/ ~ sets_up i o).
        { destruct o as [? ? ? ?|? ?|j init]; [right; intros [? ?]; discriminate|right; intros [? ?]; discriminate|].
          destruct (Nat.eq_dec j i) as [->|NE]; [left; now exists init|right; intros [? X]; injection X as ? ?; congruence]. }
        destruct Q as [[init ->]|Q].
        -- exists l, init, []. auto.
        -- rewrite (K3 Q) in ST. apply S in ST as [l1 [init [l2 [-> L]]]].
           exists l1, init, (l2 ++ [o])%list. split; [now rewrite <- app_assoc|exact L].
      * intros [l1 [init [l2 [E L]]]]. destruct l2 as [|x l2] using rev_ind.
        -- apply app_inj_tail in E as [-> ->]. now apply (K4 init).
        -- clear IHl2. change (SetupUnit i init :: l2 ++ [x])%list with ((SetupUnit i init :: l2) ++ [x])%list in E.
           rewrite app_assoc in E. apply app_inj_tail in E as [-> ->].
           assert (W : was_set_up free (l1 ++ SetupUnit i init :: l2) i) by (exists l1, init, l2; auto).
           apply S in W.
           assert (Q : sets_up i x \/ ~ sets_up i x).
           { destruct x as [? ? ? ?|? ?|j init']; [right; intros [? ?]; discriminate|right; intros [? ?]; discriminate|].
             destruct (Nat.eq_dec j i) as [->|NE]; [left; now exists init'|right; intros [? X]; injection X as ? ?; congruence]. }
           destruct Q as [[init' ->]|Q]; [now apply (K4 init')|now rewrite (K3 Q)].
    + exists a, k, s. apply in_or_app. now left.
  - destruct (construct_shape _ _ _ _ _ CO) as [ST A]. split; [exact A|]. split; [|exists a, k, s; apply in_or_app; right; now left].
    split; [congruence|]. intros [l1 [init [l2 [E L]]]]. exfalso.
    destruct l2 as [|x l2] using rev_ind.
    + apply app_inj_tail in E as [_ E]. discriminate.
    + clear IHl2. change (SetupUnit (length (p_units (run free l))) init :: l2 ++ [x])%list
        with ((SetupUnit (length (p_units (run free l))) init :: l2) ++ [x])%list in E.
      rewrite app_assoc in E. apply app_inj_tail in E as [E _].
      assert (M : forall a b, length (p_units (run free a)) <= length (p_units (run free (a ++ b)%list))).
      { intros a1 b1. revert a1. induction b1 as [|y b1 IHb]; intros a1; [rewrite app_nil_r; lia|].
        specialize (IHb (a1 ++ [y])%list). rewrite <- app_assoc in IHb. cbn [app] in IHb.
        etransitivity; [|exact IHb]. rewrite run_snoc. generalize (run free a1). intros p.
        destruct y as [c' a' k' s'|j s'|j init']; cbn [step].
        - destruct (construct c' a' k' s'); cbn [p_units]; [rewrite app_length; lia|lia].
        - destruct (nth_error (p_units p) j) as [[? ?]|]; cbn [p_units]; [rewrite length_set; lia|lia].
        - destruct (nth_error (p_units p) j) as [[c0 u0]|]; [|lia].
          destruct (setup c0 init' u0 (p_free p)) as [[[? ?] ?] ?]. cbn [p_units]. rewrite length_set; lia. }
      specialize (M l1 (SetupUnit (length (p_units (run free l))) init :: l2)). rewrite <- E in M. lia.
Qed.

(* ---- theorems ---- *)

Section Units.
Variable free : nat.

(** C74: what a unit's constructor makes of its arguments: settings given by keyword, else the first
    argument if it is settings, else the settings class called with the arguments; with no
    arguments at all, none if the settings class needs some. *)
Theorem C74_constructor l c args kwargs settings i s :
  i = length (p_units (run free l)) ->
  (has_unit (run free (l ++ [New c args kwargs settings])) i c (Some s) <->
   settings = Some s \/
   (settings = None /\ exists r, args = s :: r /\ uc_instance c s = true) \/
   (settings = None /\ (forall a r, args = a :: r -> uc_instance c a = false) /\ uc_settings c args kwargs = Made s)).
Proof.
  intros ->. rewrite run_snoc. cbn [step].
  set (p := run free l).
  assert (NU : forall u, nth_error (p_units p ++ [(c, u)])%list (length (p_units p)) = Some (c, u)).
  { intros u. rewrite nth_error_app2 by lia. now rewrite Nat.sub_diag. }
  assert (HU : forall u, has_unit (Proc (p_units p ++ [(c, u)]) (p_free p) (p_calls p) (p_ends p)) (length (p_units p)) c (Some s)
    <-> ui_settings u = Some s).
  { intros u. unfold has_unit. cbn [p_units]. rewrite NU. split; [intros [u' [X Y]]; congruence|intros X; now exists u]. }
  assert (HN : ~ has_unit p (length (p_units p)) c (Some s)).
  { intros [u [X _]]. assert (length (p_units p) < length (p_units p)) by (apply nth_error_Some; congruence). lia. }
  unfold construct. destruct settings as [s'|].
  { rewrite HU. cbn. split; [auto|]. intros [X|[[X _]|[X _]]]; congruence. }
  destruct args as [|a args].
  - assert (NI : forall a r, @nil nat = a :: r -> uc_instance c a = false) by discriminate.
    destruct kwargs as [|kv kwargs];
      (destruct (uc_settings c [] _) as [o| |e] eqn:M; [rewrite HU; cbn| |]).
    all: try (rewrite HU; cbn).
    all: split; [intros H; try solve [exfalso; now apply HN]; try discriminate
                |intros [X|[[_ [r [X _]]]|[_ [_ X]]]]; try discriminate; try congruence].
    all: right; right; split; [reflexivity|]; split; [exact NI|congruence].
  - destruct (uc_instance c a) eqn:I.
    + rewrite HU. cbn. split.
      * intros X. injection X as ->. right. left. split; [reflexivity|]. exists args. auto.
      * intros [X|[[_ [r [X _]]]|[_ [X _]]]]; [discriminate|congruence|]. specialize (X a args eq_refl). congruence.
    + assert (NI : forall x r, a :: args = x :: r -> uc_instance c x = false) by (intros; congruence).
      destruct (uc_settings c (a :: args) kwargs) as [o| |e] eqn:M; [rewrite HU; cbn| |].
      all: split; [intros H; try solve [exfalso; now apply HN]
                  |intros [X|[[_ [r [X Y]]]|[_ [_ X]]]]; try discriminate; try congruence].
      right. right. split; [reflexivity|]. split; [exact NI|congruence].
Qed.

(** C74: a unit whose settings class needs arguments can be made without, and has no settings. *)
Theorem C74_late_settings l c :
  uc_settings c [] [] = MadeTypeError ->
  has_unit (run free (l ++ [New c [] [] None])) (length (p_units (run free l))) c None.
Proof.
  intros M. rewrite run_snoc. cbn [step construct]. rewrite M. exists blank. cbn [p_units].
  rewrite nth_error_app2, Nat.sub_diag by lia. auto.
Qed.

(** C74: a unit has the settings it was given last. *)
Theorem C74_settings_last_given l l' i c s0 s :
  has_unit (run free l) i c s0 -> Forall (fun o => ~ applies_to i o) l' ->
  has_unit (run free (l ++ l')) i c s0 /\ has_unit (run free (l ++ Apply i s :: l')) i c (Some s).
Proof.
  intros [u [N E]] F.
  assert (K : forall p u0, nth_error (p_units p) i = Some (c, u0) ->
             exists u1, nth_error (p_units (fold_left step l' p)) i = Some (c, u1) /\ ui_settings u1 = ui_settings u0).
  { clear - F. induction l' as [|o l' IH]; intros p u0 N; [now exists u0|].
    inversion F as [|? ? F1 F2]; subst. destruct (step_units p o i c u0 N) as [u1 [N1 [K1 _]]].
    destruct (IH F2 (step p o) u1 N1) as [u2 [N2 E2]]. exists u2. split; [exact N2|]. destruct (K1 F1). congruence. }
  unfold run in *. rewrite !fold_left_app. cbn [fold_left]. split.
  - destruct (K _ _ N) as [u1 [N1 E1]]. exists u1. split; [exact N1|congruence].
  - destruct (step_units _ (Apply i s) _ _ _ N) as [u1 [N1 [_ [K2 _]]]]. rewrite (K2 s eq_refl) in N1.
    destruct (K _ _ N1) as [u2 [N2 E2]]. exists u2. split; [exact N2|exact E2].
Qed.

(** C74: setting up a unit. It is set up if it had not been, has settings, initialize does not raise
    when called with those settings and a new state, and leaves a value for every field; and is not
    set up otherwise. *)
Theorem C74_setup l i c s init :
  classes_ok l -> has_unit (run free l) i c s ->
  exists e, p_ends (run free (l ++ [SetupUnit i init])) = (p_ends (run free l) ++ [(i, e)])%list /\
  (was_set_up free l i -> e = StateThere) /\
  (~ was_set_up free l i -> s = None -> e = NoSettings) /\
  (forall v, ~ was_set_up free l i -> s = Some v ->
     exists a, fresh_state c (p_free (run free l)) a /\
       p_calls (run free (l ++ [SetupUnit i init])) = (p_calls (run free l) ++ [(i, (Some v, a))])%list /\
       (forall x, snd (init (Some v) a) = Some x -> e = InitializeFailed x) /\
       (snd (init (Some v) a) = None ->
         ((forall n d, In (n, d) (uc_fields c) -> exists w, state_attr c (fst (init (Some v) a)) n = Some w) -> e = SetUp) /\
         (forall n d, In (n, d) (uc_fields c) -> state_attr c (fst (init (Some v) a)) n = None -> e = FieldMissing))).
Proof.
  intros OK [u [N E]]. destruct (unit_inv _ _ _ _ _ N) as [A [S [a0 [k0 [s0 I]]]]].
  rewrite run_snoc. cbn [step]. rewrite N.
  destruct (setup c init u (p_free (run free l))) as [[[u' f'] e] call] eqn:SE. cbn [p_ends p_calls].
  exists e. split; [reflexivity|]. unfold setup in SE.
  destruct (ui_state u) as [st|] eqn:ST.
  - assert (W : was_set_up free l i) by (apply S; congruence).
    injection SE as _ _ <- _. split; [auto|]. split; [contradiction|]. intros; contradiction.
  - assert (W : ~ was_set_up free l i) by (intros W; apply S in W; congruence).
    destruct (factories (uc_fields c) (p_free (run free l))) as [at0 f0] eqn:FA. cbn [ui_applied ui_settings] in SE.
    pose proof (factories_fresh c _ _ _ (OK _ _ _ _ I) FA) as FR.
    split; [contradiction|]. split.
    + intros _ ->. destruct (ui_applied u) eqn:AP; cbn [negb] in SE.
      * exfalso. assert (ui_settings u <> None) by now apply A. congruence.
      * injection SE as _ _ <- _. reflexivity.
    + intros v _ ->. assert (AP : ui_applied u = true) by (apply A; congruence). rewrite AP, E in SE. cbn [negb] in SE.
      exists at0. split; [exact FR|]. destruct (init (Some v) at0) as [at1 [er|]]; injection SE as _ _ <- <-; cbn [fst snd].
      * split; [reflexivity|]. split; [intros x X; congruence|discriminate].
      * split; [reflexivity|]. split; [discriminate|]. intros _. unfold check_state. split.
        -- intros H. replace (forallb _ _) with true; [reflexivity|]. symmetry. apply forallb_forall. intros [n d] X. cbn [fst].
           destruct (H n d X) as [w ->]. reflexivity.
        -- intros n d X Y. replace (forallb _ _) with false; [reflexivity|]. symmetry. apply not_true_iff_false.
           rewrite forallb_forall. intros H. specialize (H _ X). cbn [fst] in H. rewrite Y in H. discriminate.
Qed.

(** C74: a unit that has been set up has settings, was not set up before, and every field of its
    state has a value. *)
Theorem C74_set_up_complete l i init c :
  (exists s, has_unit (run free l) i c s) ->
  p_ends (run free (l ++ [SetupUnit i init])) = (p_ends (run free l) ++ [(i, SetUp)])%list ->
  ~ was_set_up free l i /\ (exists s, has_unit (run free l) i c (Some s)) /\
  forall n d, In (n, d) (uc_fields c) -> exists v, state_has (run free (l ++ [SetupUnit i init])) i n v.
Proof.
  intros [s [u [N E]]] P. destruct (unit_inv _ _ _ _ _ N) as [A [S _]].
  rewrite run_snoc in *. cbn [step] in *. rewrite N in *.
  destruct (setup c init u (p_free (run free l))) as [[[u' f'] e] call] eqn:SE. cbn [p_ends] in P.
  apply app_inv_head in P. injection P as ->. unfold setup in SE.
  destruct (ui_state u) as [st|] eqn:ST; [discriminate|].
  split; [intros W; apply S in W; congruence|].
  destruct (factories (uc_fields c) (p_free (run free l))) as [at0 f0] eqn:FA. cbn [ui_applied ui_settings] in SE.
  destruct (ui_applied u) eqn:AP; cbn [negb] in SE; [|discriminate].
  split.
  - destruct (ui_settings u) as [v|] eqn:US; [exists v, u; auto|]. exfalso. now apply A.
  - destruct (init (ui_settings u) at0) as [at1 [er|]]; [discriminate|].
    destruct (check_state c at1) eqn:CK; [|discriminate]. injection SE as <- <- <-.
    intros n d X. unfold check_state in CK. rewrite forallb_forall in CK. specialize (CK _ X). cbn [fst] in CK.
    destruct (state_attr c at1 n) as [v|] eqn:Y; [|discriminate]. exists v.
    exists c, (UInst (ui_settings u) true (Some at1)), at1. cbn [p_units]. split; [eapply nth_set_eq; exact N|]. auto.
Qed.

(** The calls of [initialize] of a history. *)
Lemma calls_inv l :
  free <= p_free (run free l) /\
  (forall i x, In (i, x) (p_calls (run free l)) -> was_set_up free l i /\ i < length (p_units (run free l)) /\ fst x <> None) /\
  NoDup (map fst (p_calls (run free l))) /\
  (forall i x n v, In (i, x) (p_calls (run free l)) -> In (n, v) (snd x) -> free <= v < p_free (run free l)) /\
  (forall i x n v j y m, In (i, x) (p_calls (run free l)) -> In (j, y) (p_calls (run free l)) ->
     In (n, v) (snd x) -> In (m, v) (snd y) -> i = j).
Proof.
  induction l as [|o l [L [C [D [B U]]]]] using rev_ind.
  - cbn. split; [lia|]. split; [intros ? ? []|]. split; [constructor|]. split; [intros ? ? ? ? []|intros ? ? ? ? ? ? ? []].
  - rewrite run_snoc.
    assert (WK : forall i x, was_set_up free l i -> was_set_up free (l ++ [x]) i).
    { intros i x [l1 [init [l2 [-> LT]]]]. exists l1, init, (l2 ++ [x])%list. split; [now rewrite <- app_assoc|exact LT]. }
    assert (LU : forall i, i < length (p_units (run free l)) -> i < length (p_units (step (run free l) o))).
    { intros i LT. destruct (nth_error (p_units (run free l)) i) as [[c u]|] eqn:N.
      - destruct (step_units _ o _ _ _ N) as [u' [H _]]. apply nth_error_Some. congruence.
      - apply nth_error_None in N. lia. }
    assert (SAME : p_free (step (run free l) o) = p_free (run free l) -> p_calls (step (run free l) o) = p_calls (run free l) ->
      free <= p_free (step (run free l) o) /\
      (forall i x, In (i, x) (p_calls (step (run free l) o)) -> was_set_up free (l ++ [o]) i /\ i < length (p_units (step (run free l) o)) /\ fst x <> None) /\
      NoDup (map fst (p_calls (step (run free l) o))) /\
      (forall i x n v, In (i, x) (p_calls (step (run free l) o)) -> In (n, v) (snd x) -> free <= v < p_free (step (run free l) o)) /\
      (forall i x n v j y m, In (i, x) (p_calls (step (run free l) o)) -> In (j, y) (p_calls (step (run free l) o)) ->
         In (n, v) (snd x) -> In (m, v) (snd y) -> i = j)).
    { intros -> ->. split; [exact L|]. split; [|auto]. intros i x H. destruct (C i x H) as [W [LT FX]]. auto. }
    destruct o as [c' a' k' s'|j s|j init]; cbn [step] in *.
    + destruct (construct c' a' k' s'); cbn [p_free p_calls] in *; apply SAME; reflexivity.
    + destruct (nth_error (p_units (run free l)) j) as [[c2 u2]|]; cbn [p_free p_calls] in *; apply SAME; reflexivity.
    + destruct (nth_error (p_units (run free l)) j) as [[c u]|] eqn:N; [|apply SAME; reflexivity].
      destruct (unit_inv _ _ _ _ _ N) as [A [S _]].
      assert (LT : j < length (p_units (run free l))) by (apply nth_error_Some; congruence).
      unfold setup in *. destruct (ui_state u) as [st|] eqn:ST.
      { cbn [p_free p_calls] in *. rewrite app_nil_r in *. apply SAME; reflexivity. }
      clear SAME. pose proof (factories_bounds (uc_fields c) (p_free (run free l))) as FB.
      destruct (factories (uc_fields c) (p_free (run free l))) as [at0 f0]. destruct FB as [F1 [F2 [F3 F4]]].
      cbn [ui_applied ui_settings] in *.
      assert (NW : ~ was_set_up free l j) by (intros W; apply S in W; congruence).
      destruct (ui_applied u) eqn:AP; cbn [negb] in *.
      * assert (G : forall u' e, let p := Proc (set_nth (p_units (run free l)) j (c, u')) f0
                    (p_calls (run free l) ++ [(j, (ui_settings u, at0))]) (p_ends (run free l) ++ [(j, e)]) in
          free <= p_free p /\
          (forall i x, In (i, x) (p_calls p) -> was_set_up free (l ++ [SetupUnit j init]) i /\ i < length (p_units p) /\ fst x <> None) /\
          NoDup (map fst (p_calls p)) /\
          (forall i x n v, In (i, x) (p_calls p) -> In (n, v) (snd x) -> free <= v < p_free p) /\
          (forall i x n v j y m, In (i, x) (p_calls p) -> In (j, y) (p_calls p) -> In (n, v) (snd x) -> In (m, v) (snd y) -> i = j)).
        { intros u' e. cbn zeta. cbn [p_free p_calls p_units]. split; [lia|]. split; [|split; [|split]].
          - intros i x H. rewrite length_set. apply in_app_iff in H as [H|[H|[]]].
            + destruct (C i x H) as [W [LI FX]]. auto.
            + injection H as <- <-. split; [exists l, init, []; auto|]. split; [exact LT|]. cbn. now apply A.
          - rewrite map_app. cbn [map fst]. apply NoDup_rev in D. rewrite <- (rev_involutive (_ ++ _)%list). apply NoDup_rev.
            rewrite rev_app_distr. cbn. constructor; [|exact D]. rewrite <- in_rev. intros H.
            apply in_map_iff in H as [[i x] [X H]]. cbn in X. subst i. destruct (C j x H) as [W _]. contradiction.
          - intros i x n v H H2. apply in_app_iff in H as [H|[H|[]]]; [specialize (B _ _ _ _ H H2); lia|].
            injection H as <- <-. cbn in H2. apply F3 in H2. lia.
          - intros i x n v i' y m H H' X Y. apply in_app_iff in H as [H|[H|[]]]; apply in_app_iff in H' as [H'|[H'|[]]].
            + eapply U; eassumption.
            + injection H' as <- <-. cbn in Y. apply F3 in Y. specialize (B _ _ _ _ H X). lia.
            + injection H as <- <-. cbn in X. apply F3 in X. specialize (B _ _ _ _ H' Y). lia.
            + congruence. }
        destruct (init (ui_settings u) at0) as [at1 [er|]]; apply G.
      * cbn [p_free p_calls p_units]. rewrite app_nil_r. split; [lia|]. split; [|split; [exact D|split]].
        -- intros i x H. rewrite length_set. destruct (C i x H) as [W [LI FX]]. auto.
        -- intros i x n v H H2. specialize (B _ _ _ _ H H2). lia.
        -- exact U.
Qed.

(** C74: initialize is called at most once for a unit, and only when the unit has settings. *)
Theorem C74_initialize_once l :
  NoDup (map fst (p_calls (run free l))) /\
  forall i s a, In (i, (s, a)) (p_calls (run free l)) -> s <> None.
Proof.
  destruct (calls_inv l) as [_ [C [D _]]]. split; [exact D|]. intros i s a H. apply (C i (s, a) H).
Qed.

(** C74: the objects that default factories make for a unit are new and belong to that unit. *)
Theorem C74_state_not_shared l i s a n v :
  In (i, (s, a)) (p_calls (run free l)) -> In (n, v) a ->
  free <= v /\ forall j s' a' m, In (j, (s', a')) (p_calls (run free l)) -> In (m, v) a' -> j = i.
Proof.
  intros H X. destruct (calls_inv l) as [_ [_ [_ [B U]]]]. split; [exact (proj1 (B i (s, a) n v H X))|].
  intros j s' a' m H' Y. symmetry. exact (U i (s, a) n v j (s', a') m H H' X Y).
Qed.
End Units.

(** C74 finding: a unit that could not be set up because it had no settings cannot be set up after
    it is given some: the failed attempt leaves its state behind, and the second trips over it. *)
Theorem C74_retry_refuted :
  ~ (forall free l i c s init,
       has_unit (run free l) i c (Some s) ->
       (forall x, ~ In (i, (Some s, x)) (p_calls (run free l))) ->
       (forall a, init (Some s) a = (a, None)) -> uc_fields c = [] ->
       p_ends (run free (l ++ [SetupUnit i init])) = (p_ends (run free l) ++ [(i, SetUp)])%list).
Proof.
  intros H.
  specialize (H 0 [New (UClass (fun _ _ => MadeTypeError) (fun _ => true) []) [] [] None;
                   SetupUnit 0 (fun _ a => (a, None)); Apply 0 5] 0 (UClass (fun _ _ => MadeTypeError) (fun _ => true) []) 5
                (fun _ a => (a, None))).
  assert (X : p_ends (run 0 ([New (UClass (fun _ _ => MadeTypeError) (fun _ => true) []) [] [] None;
                   SetupUnit 0 (fun _ a => (a, None)); Apply 0 5] ++ [SetupUnit 0 (fun _ a => (a, None))]))
              = [(0, NoSettings); (0, SetUp)]).
  { apply H; [eexists; split; reflexivity|intros x []|reflexivity|reflexivity]. }
  discriminate X.
Qed.

(** C74 finding: arguments next to a settings object are ignored without a word. *)
Theorem C74_extra_arguments_refuted :
  ~ (forall c s kwargs kwargs' u, uc_instance c s = true ->
       construct c [s] kwargs None = Some u -> construct c [s] kwargs' None = Some u -> kwargs = kwargs') /\
  ~ (forall c s args args' u, construct c args [] (Some s) = Some u -> construct c args' [] (Some s) = Some u -> args = args').
Proof.
  split; intros H.
  - specialize (H (UClass (fun _ _ => Made 1) (fun _ => true) []) 3 [] [("gain", 2)] _ eq_refl eq_refl eq_refl). discriminate.
  - specialize (H (UClass (fun _ _ => Made 1) (fun _ => true) []) 3 [] [2] _ eq_refl eq_refl). discriminate.
Qed.

(** C74 finding: the constructor accepts as settings an object that is not of the unit's settings
    class. *)
Theorem C74_any_settings_refuted :
  ~ (forall c args kwargs settings u s, (forall a k o, uc_settings c a k = Made o -> uc_instance c o = true) ->
       construct c args kwargs settings = Some u -> ui_settings u = Some s -> uc_instance c s = true).
Proof.
  intros H. specialize (H (UClass (fun _ _ => MadeTypeError) (fun _ => false) []) [] [] (Some 4) _ 4 ltac:(discriminate) eq_refl eq_refl).
  discriminate.
Qed.

(** C74 finding: the object that is the default of a field is the same in all units: what one unit
    does to it, the others see. *)
Theorem C74_default_shared_refuted :
  ~ (forall free l i j n m v, state_has (run free l) i n v -> state_has (run free l) j m v -> i = j).
Proof.
  intros H. set (c := UClass (fun _ _ => Made 1) (fun _ => true) [("buffer", Default 2)]).
  specialize (H 3 [New c [] [] None; New c [] [] None; SetupUnit 0 (fun _ a => (a, None)); SetupUnit 1 (fun _ a => (a, None))]
                0 1 "buffer" "buffer" 2).
  discriminate H; do 3 eexists; (split; [reflexivity|]); (split; [reflexivity|]); reflexivity.
Qed.

(** Two units of a class with a field of each kind; the second gets its settings late. *)
Example C74_case :
  let c := UClass (fun a k => match k with [] => MadeTypeError | _ => Made 1 end) (fun o => Nat.eqb o 7)
             [("queue", Factory); ("count", Default 2); ("rate", NoDefault)] in
  let init := fun (s : option nat) (a : list (string * nat)) => (put "rate" 9 a, @None nat) in
  let p := run 10 [New c [7] [] None; New c [] [] None; SetupUnit 0 init; Apply 1 8; SetupUnit 1 init; SetupUnit 1 init] in
  p_calls p = [(0, (Some 7, [("queue", 10)])); (1, (Some 8, [("queue", 11)]))] /\
  p_ends p = [(0, SetUp); (1, SetUp); (1, StateThere)] /\
  state_has p 1 "queue" 11 /\ state_has p 1 "count" 2 /\ state_has p 1 "rate" 9.
Proof.
  cbn zeta. split; [reflexivity|]. split; [reflexivity|].
  split; [|split]; do 3 eexists; (split; [reflexivity|]); (split; [reflexivity|]); reflexivity.
Qed.

Print Assumptions C74_constructor.
Print Assumptions C74_late_settings.
Print Assumptions C74_settings_last_given.
Print Assumptions C74_setup.
Print Assumptions C74_set_up_complete.
Print Assumptions C74_initialize_once.
Print Assumptions C74_state_not_shared.
Print Assumptions C74_retry_refuted.
Print Assumptions C74_extra_arguments_refuted.
Print Assumptions C74_any_settings_refuted.
Print Assumptions C74_default_shared_refuted.
