(* Proofs for SchemaProps.v. *)

From Coq Require Import String Ascii List Arith Bool Lia.
From Verif Require Import Dict SanitizeModel SanitizeSpec SanitizeProofs SchemaModel SchemaSpec.
Import ListNotations.
Local Open Scope string_scope.

(* ---- strings ---- *)

Lemma lower_app a b : lower (a ++ b) = lower a ++ lower b.
Proof. induction a as [|c a IH]; cbn; [reflexivity|now rewrite IH]. Qed.

Lemma prefix_app a b : prefix a (a ++ b) = true.
Proof. induction a as [|c a IH]; cbn; [now destruct b|]. destruct (ascii_dec c c); [exact IH|congruence]. Qed.

Lemma contains_app s a b : contains s (a ++ s ++ b) = true.
Proof.
  induction a as [|c a IH]; cbn -[prefix].
  - replace ("" ++ s ++ b) with (s ++ b) by reflexivity. pose proof (prefix_app s b) as P. destruct (s ++ b); cbn -[prefix]; rewrite P; reflexivity.
  - rewrite IH. now rewrite orb_true_r.
Qed.

Section Schema.
Context (str_of : pv -> string) (float_of : pv -> option pv).
Notation sanitize := (sanitize str_of).

(* ---- fields and slots ---- *)

Definition visible (c : settings_class) : list slot :=
  match c with
  | CParam _ _ => filter (fun s => if dec (s_name s) "name" then false else true) (slots c)
  | _ => slots c
  end.

Lemma visible_slots c s : In s (visible c) -> In s (slots c).
Proof. destruct c; cbn [visible]; auto. intros H. now apply filter_In in H. Qed.

Lemma slots_visible c s : In s (slots c) -> In s (visible c) \/ (exists n ps, c = CParam n ps) /\ s_name s = "name".
Proof.
  destruct c as [| | |n ps|]; cbn [visible]; auto. intros H. destruct (dec (s_name s) "name") as [E|E]; [right; eauto|].
  left. apply filter_In. split; [exact H|]. destruct (dec (s_name s) "name"); congruence.
Qed.

Definition shows (ex : Prop) (s : slot) (m : field_meta) : Prop :=
  m_name m = s_name s /\ (m_required m = true <-> s_fallback s = None) /\
  (ex -> forall v, s_fallback s = Some (Some v) -> m_default m = sanitize v) /\
  plain (m_default m) /\ (forall l, m_choices m = Some l -> Forall plain l).

Lemma plain_sanitize v : plain (sanitize v).
Proof. unfold SanitizeModel.sanitize. now apply san_plain. Qed.

Lemma plain_map l : Forall plain (map sanitize l).
Proof. apply Forall_forall. intros x I. apply in_map_iff in I as [v [<- _]]. apply plain_sanitize. Qed.

Lemma plain_literal a l : choices_from_annotation str_of a = Some l -> Forall plain l.
Proof. destruct a; cbn; try discriminate. intros [= <-]. apply plain_map. Qed.

Lemma all_fields_F2 {A} (f : A -> option field_meta) l : forall ms, all_fields f l = Some ms -> Forall2 (fun x m => f x = Some m) l ms.
Proof.
  induction l as [|x l IH]; intros ms H; cbn in H; [injection H as <-; constructor|].
  destruct (f x) as [m|] eqn:E; [|discriminate]. destruct (all_fields f l) as [r|]; [|discriminate]. injection H as <-. constructor; auto.
Qed.

Lemma F2_impl {A B} (R S : A -> B -> Prop) l l' : Forall2 R l l' -> (forall x y, In x l -> R x y -> S x y) -> Forall2 S l l'.
Proof. intros F. induction F as [|x y l l' r F IH]; intros H; constructor; [apply H; [now left|exact r]|apply IH; intros a b I; apply H; now right]. Qed.

Lemma F2_map_l {A B C} (g : A -> C) (R : C -> B -> Prop) l l' : Forall2 (fun x y => R (g x) y) l l' -> Forall2 R (map g l) l'.
Proof. intros F. induction F; cbn; constructor; auto. Qed.

Lemma dataclass_shows f m : dataclass_field str_of float_of f = Some m ->
  shows True (mkSlot (f_name f) (f_init f) (fallback (f_default f) (f_factory f))) m.
Proof.
  unfold dataclass_field. destruct (float_if_number float_of (get_or "ge" "min" (f_meta f))) as [lo|]; [|discriminate].
  destruct (float_if_number float_of (get_or "le" "max" (f_meta f))) as [hi|]; [|discriminate]. intros [= <-]. unfold shows. cbn.
  split; [reflexivity|]. split; [|split; [|split]].
  - unfold fallback. destruct (f_default f) as [v|], (f_factory f) as [[w|]|]; split; intros; congruence.
  - intros _ v H. unfold fallback in H. destruct (f_default f) as [w|]; [congruence|]. rewrite H. reflexivity.
  - destruct (f_default f) as [v|]; [apply plain_sanitize|]. destruct (f_factory f) as [[w|]|]; [apply plain_sanitize|constructor|constructor].
  - intros l H. destruct (get "choices" (f_meta f)) as [v|]; [|now apply plain_literal in H].
    destruct v as [| | | | | |k l0| |]; try (now apply plain_literal in H). destruct k; try (now apply plain_literal in H); injection H as <-; apply plain_map.
Qed.

Lemma pydantic2_shows n y m : pydantic2_field str_of float_of (n, y) = Some m ->
  shows (y_factory y = None) (mkSlot n true (fallback (y_default y) (y_factory y))) m.
Proof.
  cbn. intros [= <-]. unfold shows. cbn. split; [reflexivity|]. split; [|split; [|split]].
  - unfold fallback. destruct (y_default y) as [v|], (y_factory y) as [[w|]|]; split; intros; congruence.
  - intros E v H. unfold fallback in H. rewrite E in *. destruct (y_default y) as [w|]; congruence.
  - destruct (y_default y) as [v|], (y_factory y); try apply plain_sanitize; constructor.
  - intros l H. now apply plain_literal in H.
Qed.

Lemma pydantic1_shows n y m : pydantic1_field str_of float_of (n, y) = Some m ->
  shows (y_factory y = None) (mkSlot n true (fallback (y_default y) (y_factory y))) m.
Proof.
  unfold pydantic1_field. destruct (extract_bounds float_of (y_limits y)) as [b|]; [|discriminate]. intros [= <-]. unfold shows. cbn. split; [reflexivity|]. split; [|split; [|split]].
  - unfold fallback. destruct (y_default y) as [v|], (y_factory y) as [[w|]|]; split; intros; congruence.
  - intros E v H. unfold fallback in H. rewrite E in *. destruct (y_default y) as [w|]; congruence.
  - destruct (y_default y) as [v|], (y_factory y); try apply plain_sanitize; constructor.
  - intros l H. now apply plain_literal in H.
Qed.

Lemma param_shows n q m : param_field str_of float_of (n, q) = Some m ->
  shows True (mkSlot n true (Some (Some (q_default q)))) m.
Proof.
  unfold param_field. destruct (param_bounds float_of (q_bounds q)) as [b|]; [|discriminate]. intros [= <-]. unfold shows. cbn. split; [reflexivity|]. split; [|split; [|split]].
  - split; discriminate.
  - intros _ v [= <-]. reflexivity.
  - apply plain_sanitize.
  - intros l H. destruct (q_objects q) as [v|]; [|discriminate]. destruct v as [| | | | |b0 l0|k l0| |]; try discriminate.
    + injection H as <-. apply Forall_forall. intros x I. apply in_map_iff in I as [p [<- _]]. apply plain_sanitize.
    + destruct k; try discriminate; injection H as <-; apply plain_map.
Qed.

Lemma filter_map_comm {A B} (g : A -> B) (p : B -> bool) l : filter p (map g l) = map g (filter (fun x => p (g x)) l).
Proof. induction l as [|x l IH]; cbn; [reflexivity|]. destruct (p (g x)); cbn; now rewrite IH. Qed.

Lemma fields_shown c d : settings_schema_from_type str_of float_of c = Schema d -> Forall2 (shows (explicit c)) (visible c) (c_fields d).
Proof.
  destruct c as [n fs|n fs|n fs|n ps|]; cbn [settings_schema_from_type visible slots]; [| | | |discriminate]; unfold describe.
  - destruct (all_fields _ fs) as [ms|] eqn:E; [|discriminate]. intros [= <-]. cbn. apply F2_map_l. eapply F2_impl; [exact (all_fields_F2 _ _ _ E)|].
    intros f m _ H. exact (dataclass_shows f m H).
  - destruct (all_fields _ fs) as [ms|] eqn:E; [|discriminate]. intros [= <-]. cbn [c_fields]. apply F2_map_l. eapply F2_impl; [exact (all_fields_F2 _ _ _ E)|].
    intros [k y] m I H. pose proof (pydantic2_shows k y m H) as (A & B & C & D). split; [exact A|]. split; [exact B|]. split; [|exact D]. intros X. apply C. exact (X k y I).
  - destruct (all_fields _ fs) as [ms|] eqn:E; [|discriminate]. intros [= <-]. cbn [c_fields]. apply F2_map_l. eapply F2_impl; [exact (all_fields_F2 _ _ _ E)|].
    intros [k y] m I H. pose proof (pydantic1_shows k y m H) as (A & B & C & D). split; [exact A|]. split; [exact B|]. split; [|exact D]. intros X. apply C. exact (X k y I).
  - destruct (all_fields _ _) as [ms|] eqn:E; [|discriminate]. intros [= <-]. cbn [c_fields]. rewrite filter_map_comm. cbn [s_name].
    apply F2_map_l. eapply F2_impl; [exact (all_fields_F2 _ _ _ E)|].
    intros [k q] m _ H. exact (param_shows k q m H).
Qed.

Lemma F2_In_l {A B} (R : A -> B -> Prop) l l' x : Forall2 R l l' -> In x l -> exists y, In y l' /\ R x y.
Proof. intros F. induction F as [|a b l l' r F IH]; intros I; [destruct I|]. destruct I as [<-|I]; [exists b; split; [now left|exact r]|]. destruct (IH I) as [y [Iy Ry]]. exists y. split; [now right|exact Ry]. Qed.

Lemma F2_names ex l ms : Forall2 (shows ex) l ms -> map m_name ms = map s_name l.
Proof. intros F. induction F as [|s m l ms [E _] F IH]; cbn; [reflexivity|]. now rewrite E, IH. Qed.

(* ---- constructing ---- *)

Lemma F2_build (c : list slot) kw : (forall s, In s c -> exists a, attribute kw s a) ->
  exists attrs, Forall2 (fun s a => fst a = s_name s /\ attribute kw s (snd a)) c attrs.
Proof.
  induction c as [|s c IH]; intros H; [exists []; constructor|].
  destruct (H s (or_introl eq_refl)) as [a A]. destruct IH as [attrs F]; [intros t I; apply H; now right|].
  exists ((s_name s, a) :: attrs). constructor; auto.
Qed.

Lemma constructs_iff c d kw : settings_schema_from_type str_of float_of c = Schema d -> ordinary c ->
  (forall k, In k (keys kw) -> In k (map s_name (slots c))) ->
  (exists attrs, constructs c kw attrs) <-> (forall m, In m (c_fields d) -> m_required m = true -> In (m_name m) (keys kw)).
Proof.
  intros S O K. pose proof (fields_shown c d S) as F. split.
  - intros [attrs [_ C]] m I R. destruct (F2_In_r _ _ _ _ F I) as [s [Is (N & RQ & _)]]. apply visible_slots in Is.
    destruct (F2_In_l _ _ _ _ C Is) as [a [_ [_ A]]]. rewrite N. apply RQ in R. destruct (O s Is) as [P _].
    inversion A as [v _ G|v _ G|_ _ G]; [now apply get_Some_key in G|congruence|congruence].
  - intros R. destruct (F2_build (slots c) kw) as [attrs A].
    + intros s I. destruct (O s I) as [P NF]. destruct (get (s_name s) kw) as [v|] eqn:G; [exists (Some v); now apply a_passed|].
      destruct (s_fallback s) as [[v|]|] eqn:FB; [exists (Some v); now apply a_fallback|congruence|]. exfalso.
      destruct (slots_visible c s I) as [V|[[n [ps ->]] N]].
      * destruct (F2_In_l _ _ _ _ F V) as [m [Im (N & RQ & _)]]. apply RQ in FB. specialize (R m Im FB). rewrite N in R. apply get_None in G. auto.
      * cbn in I. apply in_map_iff in I as [e [<- _]]. discriminate.
    + exists attrs. split; [|exact A]. intros k I. apply K in I. apply in_map_iff in I as [s [E I]]. exists s. destruct (O s I). auto.
Qed.

(* ---- structured values ---- *)

Lemma sanitize_items l : NoDup (map fst l) -> sanitize (PDict true (items l)) = PDict true (map (fun a => (PStr (fst a), sanitize (snd a))) l).
Proof.
  intros N. unfold SanitizeModel.sanitize at 1. destruct (height (PDict true (items l))) as [|n] eqn:En; [discriminate|]. cbn [sanitize_upto]. f_equal.
  assert (Em : map (fun p => (str_key str_of (fst p), sanitize_upto str_of n (snd p))) (items l) = map (fun f => (fst f, sanitize (snd f))) l).
  { assert (Hl : forall p, In p (items l) -> height (snd p) <= n) by (intros p Ip; pose proof (height_dict true (items l) p Ip); lia).
    unfold items. rewrite map_map. apply map_ext_in. intros [k v] I. cbn. f_equal. apply san_eq. apply (Hl (PStr k, v)). unfold items. apply in_map_iff. exists (k, v). auto. }
  rewrite Em. unfold build_dict. rewrite build_distinct; [now rewrite map_map|]. now rewrite map_map.
Qed.

Lemma structured_instance c repr attrs d : NoDup (map fst attrs) -> settings_structured_value str_of (instance c repr attrs) = Some d ->
  d = PDict true (map (fun a => (PStr (fst a), sanitize (snd a))) attrs).
Proof.
  intros N H. destruct c as [n fs|n fs|n fs|n ps|]; cbn [instance] in H; [now apply structured_data in H| | | |discriminate];
    cbn [settings_structured_value] in H; injection H as <-; now apply sanitize_items.
Qed.

Lemma constructs_names c kw attrs : constructs c kw (all_set attrs) -> map fst attrs = map s_name (slots c).
Proof.
  intros [_ F]. revert F. generalize (slots c). intros l. revert l. induction attrs as [|[k v] r IH]; intros l F; inversion F as [|s a l' r' [E _] F']; subst; cbn in *; [reflexivity|].
  now rewrite (IH _ F'), E.
Qed.

Lemma structured_entry c d kw repr attrs w m : wf c -> explicit c -> settings_schema_from_type str_of float_of c = Schema d ->
  constructs c kw (all_set attrs) -> settings_structured_value str_of (instance c repr attrs) = Some w -> In m (c_fields d) ->
  entry w (m_name m) (match get (m_name m) kw with Some v => sanitize v | None => m_default m end).
Proof.
  intros W X S C V I. pose proof (constructs_names _ _ _ C) as N.
  assert (ND : NoDup (map fst attrs)) by (rewrite N; exact W).
  rewrite (structured_instance _ _ _ _ ND V). destruct (F2_In_r _ _ _ _ (fields_shown c d S) I) as [s [Is (Nm & _ & DF & _)]].
  apply visible_slots in Is. destruct C as [_ F]. destruct (F2_In_l _ _ _ _ F Is) as [a [Ia [Na A]]]. unfold all_set in Ia. apply in_map_iff in Ia as [[k v] [Ea Ia]]. subst a. cbn in Na, A. subst k.
  eexists. split; [reflexivity|]. apply in_map_iff. exists (s_name s, v). split; [|exact Ia]. cbn. rewrite Nm. f_equal.
  inversion A as [v' _ G E|v' G FB E|]; subst; rewrite G; [reflexivity|]. symmetry. exact (DF X v FB).
Qed.

(* ---- bounds ---- *)

Lemma float_if v r : float_if_number float_of v = Some r ->
  match r with Some f => exists x, v = Some x /\ is_number x = true /\ float_of x = Some f
             | None => forall x, v = Some x -> is_number x = false end.
Proof.
  unfold float_if_number. destruct v as [x|]; [|intros [= <-]; discriminate]. destruct (is_number x) eqn:N.
  - destruct (float_of x) as [f|] eqn:F; [|discriminate]. cbn. intros [= <-]. eauto.
  - intros [= <-] y [= <-]. exact N.
Qed.

(* The bounds of a dataclass field. *)
Lemma dataclass_bounds le f m x : faithful float_of le -> dataclass_field str_of float_of f = Some m ->
  within le (m_bounds m) x <->
  (forall b, get_or "ge" "min" (f_meta f) = Some b -> is_number b = true -> le b x) /\
  (forall b, get_or "le" "max" (f_meta f) = Some b -> is_number b = true -> le x b).
Proof.
  intros EX. unfold dataclass_field. destruct (float_if_number float_of (get_or "ge" "min" (f_meta f))) as [lo|] eqn:L; [|discriminate].
  destruct (float_if_number float_of (get_or "le" "max" (f_meta f))) as [hi|] eqn:H; [|discriminate]. intros [= <-]. cbn [m_bounds].
  apply float_if in L. apply float_if in H.
  assert (A : match lo with Some l => le l x | None => True end <-> (forall b, get_or "ge" "min" (f_meta f) = Some b -> is_number b = true -> le b x)).
  { destruct lo as [l|].
    - destruct L as [v [G [N F]]]. rewrite G. destruct (EX v l x F) as [E _]. split; [intros Q b [= <-] _; tauto|intros Q; apply E, Q; auto].
    - split; [|auto]. intros _ b G N. specialize (L b G). congruence. }
  assert (B : match hi with Some l => le x l | None => True end <-> (forall b, get_or "le" "max" (f_meta f) = Some b -> is_number b = true -> le x b)).
  { destruct hi as [l|].
    - destruct H as [v [G [N F]]]. rewrite G. destruct (EX v l x F) as [_ E]. split; [intros Q b [= <-] _; tauto|intros Q; apply E, Q; auto].
    - split; [|auto]. intros _ b G N. specialize (H b G). congruence. }
  rewrite <- A, <- B. destruct lo, hi; cbn; tauto.
Qed.

Lemma first_number_in ns attrs v : first_number ns attrs = Some v -> exists n, In n ns /\ get n attrs = Some v /\ is_number v = true.
Proof.
  induction ns as [|n ns IH]; cbn; [discriminate|]. destruct (get n attrs) as [u|] eqn:G.
  - destruct (is_number u) eqn:N; [intros [= <-]; exists n; auto|]. intros H. destruct (IH H) as [k [I R]]. exists k. auto.
  - intros H. destruct (IH H) as [k [I R]]. exists k. auto.
Qed.

Lemma extracted le attrs b x : faithful float_of le -> get "min_length" attrs = None -> get "max_length" attrs = None ->
  extract_bounds float_of attrs = Some b -> limits le x attrs -> within le b x.
Proof.
  intros EX ML MX H L. unfold extract_bounds in H.
  destruct (float_if_number float_of (first_number ["ge"; "gt"; "min_length"] attrs)) as [lo|] eqn:E1; [|discriminate].
  destruct (float_if_number float_of (first_number ["le"; "lt"; "max_length"] attrs)) as [hi|] eqn:E2; [|destruct lo; discriminate].
  apply float_if in E1. apply float_if in E2.
  assert (A : match lo with Some l => le l x | None => True end).
  { destruct lo as [l|]; [|exact I]. destruct E1 as [v [G [N F]]]. apply first_number_in in G as [n [I [G _]]]. apply get_In in G as G'.
    destruct (L n v G' N) as (L1 & L2 & _). destruct (EX v l x F) as [E _]. apply E. destruct I as [<-|[<-|[<-|[]]]]; [apply L1; now left|now apply L2|congruence]. }
  assert (B : match hi with Some l => le x l | None => True end).
  { destruct hi as [l|]; [|exact I]. destruct E2 as [v [G [N F]]]. apply first_number_in in G as [n [I [G _]]]. apply get_In in G as G'.
    destruct (L n v G' N) as (_ & _ & L3 & L4). destruct (EX v l x F) as [_ E]. apply E. destruct I as [<-|[<-|[<-|[]]]]; [apply L3; now left|now apply L4|congruence]. }
  destruct lo, hi; injection H as <-; cbn; auto.
Qed.

End Schema.
