(* C83: the published description of a settings type. *)

From Coq Require Import String Ascii List Arith Bool Lia.
From Verif Require Import Dict SanitizeModel SanitizeSpec SanitizeProofs SchemaModel SchemaSpec SchemaProofs.
Import ListNotations.
Local Open Scope string_scope.

(** [str_of] is Python's [str], [float_of] its [float]. *)

(** The fields described are the fields of the class, in order (of a param class: all but "name"). *)
Theorem C83_fields : forall (str_of : pv -> string) (float_of : pv -> option pv) c d,
  settings_schema_from_type str_of float_of c = Schema d ->
  map m_name (c_fields d) =
    match c with
    | CParam _ _ => filter (fun n => if dec n "name" then false else true) (map s_name (slots c))
    | _ => map s_name (slots c)
    end.
Proof.
  intros so fo c d H. rewrite (F2_names _ _ _ _ (fields_shown so fo c d H)). destruct c as [| | |n ps|]; try reflexivity. cbn [visible]. now rewrite filter_map_comm.
Qed.
Print Assumptions C83_fields.

(** The class can be called exactly with the arguments that include all the required fields. *)
Theorem C83_required : forall (str_of : pv -> string) (float_of : pv -> option pv) c d kw,
  settings_schema_from_type str_of float_of c = Schema d -> ordinary c ->
  (forall k, In k (keys kw) -> In k (map s_name (slots c))) ->
  (exists attrs, constructs c kw attrs) <-> (forall m, In m (c_fields d) -> m_required m = true -> In (m_name m) (keys kw)).
Proof. exact constructs_iff. Qed.
Print Assumptions C83_required.

(** The structured value of an instance has an entry for each field described: what was passed
    for it, else the default described. *)
Theorem C83_default : forall (str_of : pv -> string) (float_of : pv -> option pv) c d kw repr attrs w m,
  settings_schema_from_type str_of float_of c = Schema d -> wf c -> explicit c ->
  constructs c kw (all_set attrs) -> settings_structured_value str_of (instance c repr attrs) = Some w ->
  In m (c_fields d) ->
  entry w (m_name m) (match get (m_name m) kw with Some v => sanitize str_of v | None => m_default m end).
Proof. intros so fo c d kw repr attrs w m S W X C V I. exact (structured_entry so fo c d kw repr attrs w m W X S C V I). Qed.
Print Assumptions C83_default.

(** And no other entries (of a param class: also "name"). *)
Theorem C83_entries : forall (str_of : pv -> string) (float_of : pv -> option pv) c d kw repr attrs w,
  settings_schema_from_type str_of float_of c = Schema d -> wf c -> (forall n ps, c <> CParam n ps) ->
  constructs c kw (all_set attrs) -> settings_structured_value str_of (instance c repr attrs) = Some w ->
  entries w (map m_name (c_fields d)).
Proof.
  intros so fo c d kw repr attrs w S W NP C V. pose proof (constructs_names _ _ _ C) as N.
  assert (ND : NoDup (map fst attrs)) by (rewrite N; exact W). rewrite (structured_instance so c repr attrs w ND V).
  eexists. split; [reflexivity|]. rewrite (C83_fields so fo c d S). destruct c as [| | |n ps|]; try (rewrite <- N, !map_map; reflexivity). destruct (NP n ps eq_refl).
Qed.
Print Assumptions C83_entries.

(** Defaults and choices are plain data. *)
Theorem C83_plain : forall (str_of : pv -> string) (float_of : pv -> option pv) c d m,
  settings_schema_from_type str_of float_of c = Schema d -> In m (c_fields d) ->
  plain (m_default m) /\ forall l, m_choices m = Some l -> Forall plain l.
Proof. intros so fo c d m S I. destruct (F2_In_r _ _ _ _ (fields_shown so fo c d S) I) as [s [_ (_ & _ & _ & A & B)]]. auto. Qed.
Print Assumptions C83_plain.

(** The choices described are those declared: by the metadata of a dataclass field (a list, tuple
    or set), else by the arguments of Literal; by the objects of a parameter. *)
Theorem C83_choices : forall (str_of : pv -> string) (float_of : pv -> option pv) n fs d,
  settings_schema_from_type str_of float_of (CDataclass n fs) = Schema d ->
  Forall2 (fun f m =>
    (forall k l, get "choices" (f_meta f) = Some (PSeq k l) -> k <> KFrozenset -> m_choices m = Some (map (sanitize str_of) l)) /\
    (forall t l, get "choices" (f_meta f) = None -> f_type f = ALiteral t l -> m_choices m = Some (map (sanitize str_of) l)) /\
    (get "choices" (f_meta f) = None -> (forall t l, f_type f <> ALiteral t l) -> m_choices m = None)) fs (c_fields d).
Proof.
  intros so fo n fs d. cbn [settings_schema_from_type]. unfold describe. destruct (all_fields _ fs) as [ms|] eqn:E; [|discriminate]. intros [= <-]. cbn [c_fields].
  eapply F2_impl; [exact (all_fields_F2 _ _ _ E)|]. intros f m _ H. unfold dataclass_field in H.
  destruct (float_if_number fo (get_or "ge" "min" (f_meta f))) as [lo|]; [|discriminate].
  destruct (float_if_number fo (get_or "le" "max" (f_meta f))) as [hi|]; [|discriminate]. injection H as <-. cbn [m_choices]. split; [|split].
  - intros k l G K. rewrite G. destruct k; congruence.
  - intros t l G T. now rewrite G, T.
  - intros G T. rewrite G. destruct (f_type f) as [|t l|]; try reflexivity. destruct (T t l eq_refl).
Qed.
Print Assumptions C83_choices.

(** The bounds of a dataclass field describe exactly the values its metadata allows: at least "ge",
    or "min" if there is no "ge"; at most "le", or "max". *)
Theorem C83_bounds : forall (str_of : pv -> string) (float_of : pv -> option pv) (le : pv -> pv -> Prop) n fs d,
  settings_schema_from_type str_of float_of (CDataclass n fs) = Schema d -> faithful float_of le ->
  Forall2 (fun f m => forall x,
    (get "ge" (f_meta f) = None \/ get "min" (f_meta f) = None) -> (get "le" (f_meta f) = None \/ get "max" (f_meta f) = None) ->
    get "gt" (f_meta f) = None -> get "lt" (f_meta f) = None -> NoDup (keys (f_meta f)) ->
    within le (m_bounds m) x <-> limits le x (f_meta f)) fs (c_fields d).
Proof.
  intros so fo le n fs d. cbn [settings_schema_from_type]. unfold describe. destruct (all_fields _ fs) as [ms|] eqn:E; [|discriminate]. intros [= <-] FF. cbn [c_fields].
  eapply F2_impl; [exact (all_fields_F2 _ _ _ E)|]. intros f m _ H x O1 O2 GT LT ND. rewrite (dataclass_bounds so fo le f m x FF H). unfold get_or. split.
  - intros [A B] k b I NB. pose proof (In_get k b _ ND I) as G. split; [|split; [|split]].
    + intros [<-|[<-|[]]]; apply A; auto; [now rewrite G|]. destruct O1 as [O1|O1]; [now rewrite O1|congruence].
    + intros ->. congruence.
    + intros [<-|[<-|[]]]; apply B; auto; [now rewrite G|]. destruct O2 as [O2|O2]; [now rewrite O2|congruence].
    + intros ->. congruence.
  - intros L. split; intros b G NB.
    + destruct (get "ge" (f_meta f)) as [v|] eqn:G1.
      * injection G as <-. apply get_In in G1. destruct (L _ _ G1 NB) as [Q _]. apply Q. now left.
      * apply get_In in G. destruct (L _ _ G NB) as [Q _]. apply Q. right. now left.
    + destruct (get "le" (f_meta f)) as [v|] eqn:G1.
      * injection G as <-. apply get_In in G1. destruct (L _ _ G1 NB) as (_ & _ & Q & _). apply Q. now left.
      * apply get_In in G. destruct (L _ _ G NB) as (_ & _ & Q & _). apply Q. right. now left.
Qed.
Print Assumptions C83_bounds.

(** The bounds of a pydantic 1 field contain every value the field accepts. *)
Theorem C83_bounds_pydantic1 : forall (str_of : pv -> string) (float_of : pv -> option pv) (le : pv -> pv -> Prop) n fs d,
  settings_schema_from_type str_of float_of (CPydantic1 n fs) = Schema d -> faithful float_of le ->
  Forall2 (fun e m => forall x,
    get "min_length" (y_limits (snd e)) = None -> get "max_length" (y_limits (snd e)) = None ->
    limits le x (y_limits (snd e)) -> within le (m_bounds m) x) fs (c_fields d).
Proof.
  intros so fo le n fs d. cbn [settings_schema_from_type]. unfold describe. destruct (all_fields _ fs) as [ms|] eqn:E; [|discriminate]. intros [= <-] FF. cbn [c_fields].
  eapply F2_impl; [exact (all_fields_F2 _ _ _ E)|]. intros [k y] m _ H x A B L. unfold pydantic1_field in H.
  destruct (extract_bounds fo (y_limits y)) as [b|] eqn:EB; [|discriminate]. injection H as <-. cbn [m_bounds]. exact (extracted fo le _ b x FF A B EB L).
Qed.
Print Assumptions C83_bounds_pydantic1.

(** The bounds of a parameter are its own. *)
Theorem C83_bounds_param : forall (str_of : pv -> string) (float_of : pv -> option pv) (le : pv -> pv -> Prop) n ps d m,
  settings_schema_from_type str_of float_of (CParam n ps) = Schema d -> faithful float_of le -> In m (c_fields d) ->
  exists q, In (m_name m, q) ps /\
    forall lo hi x, numeric lo = true -> numeric hi = true -> q_bounds q = Some (PSeq KTuple [lo; hi]) ->
      (within le (m_bounds m) x <-> le lo x /\ le x hi).
Proof.
  intros so fo le n ps d m. cbn [settings_schema_from_type]. unfold describe. destruct (all_fields _ _) as [ms|] eqn:E; [|discriminate]. intros [= <-] FF I. cbn [c_fields] in I.
  destruct (F2_In_r _ _ _ _ (all_fields_F2 _ _ _ E) I) as [[k q] [Ip H]]. apply filter_In in Ip as [Ip _]. unfold param_field in H.
  destruct (param_bounds fo (q_bounds q)) as [b|] eqn:EB; [|discriminate]. injection H as <-. exists q. split; [exact Ip|]. intros lo hi x NL NH Q. change (is_number lo = true) in NL. change (is_number hi = true) in NH. rewrite Q in EB. cbn in EB.
  cbn [m_bounds]. rewrite NL, NH in EB.
  replace (match lo with PNone => true | _ => true end) with true in EB by now destruct lo.
  replace (match hi with PNone => true | _ => true end) with true in EB by now destruct hi. cbn in EB.
  destruct (fo lo) as [fl|] eqn:FL; [|discriminate]. destruct (fo hi) as [fh|] eqn:FH; [|discriminate]. cbn in EB. injection EB as <-. cbn.
  destruct (FF lo fl x FL) as [A _]. destruct (FF hi fh x FH) as [_ B]. tauto.
Qed.
Print Assumptions C83_bounds_param.

(** The widget is a selection exactly if there are choices; otherwise, for the plain types, it is
    theirs. *)
Theorem C83_widget : forall (str_of : pv -> string) (float_of : pv -> option pv) n fs d,
  settings_schema_from_type str_of float_of (CDataclass n fs) = Schema d ->
  Forall2 (fun f m =>
    (m_hint m = Some "select" <-> exists v l, m_choices m = Some (v :: l)) /\
    (forall t, (m_choices m = None \/ m_choices m = Some []) -> In t ["bool"; "int"; "float"; "str"] -> f_type f = AClass "builtins" t ->
       m_hint m = plain_hint t (match m_bounds m with Some _ => true | None => false end))) fs (c_fields d).
Proof.
  intros so fo n fs d. cbn [settings_schema_from_type]. unfold describe. destruct (all_fields _ fs) as [ms|] eqn:E; [|discriminate]. intros [= <-]. cbn [c_fields].
  eapply F2_impl; [exact (all_fields_F2 _ _ _ E)|]. intros f m _ H. unfold dataclass_field in H.
  destruct (float_if_number fo (get_or "ge" "min" (f_meta f))) as [lo|]; [|discriminate].
  destruct (float_if_number fo (get_or "le" "max" (f_meta f))) as [hi|]; [|discriminate]. injection H as <-. cbn [m_choices m_hint m_bounds].
  set (ch := match get "choices" (f_meta f) with Some _ => _ | None => _ end).
  set (bo := match lo with Some _ => _ | None => _ end). unfold widget_hint. split.
  - split.
    + destruct ch as [[|v l]|]; [|eauto|]; intros X; exfalso; revert X; repeat (match goal with |- context [if ?b then _ else _] => destruct b end; try discriminate).
    + intros [v [l Hc]]. rewrite Hc. reflexivity.
  - intros t C I T. rewrite T. assert (Ec : match ch with Some (_ :: _) => false | _ => true end = true) by (destruct C as [C|C]; rewrite C; reflexivity).
    destruct ch as [[|v l]|]; [|discriminate|]; destruct I as [<-|[<-|[<-|[<-|[]]]]]; destruct bo; reflexivity.
Qed.
Print Assumptions C83_widget.

(* ---- a concrete case ---- *)

Ltac attributes := repeat (apply Forall2_cons; [split; [reflexivity|first [apply a_passed; reflexivity|apply a_fallback; reflexivity|apply a_unset; reflexivity]]|]); apply Forall2_nil.

Definition demo_str (v : pv) : string := "?".
Definition demo_float (v : pv) : option pv := match v with PNum n => if Nat.ltb n 1000 then Some v else None | PBool b => Some (PNum (if b then 1 else 0)) | _ => None end.
Definition demo_class : settings_class :=
  CDataclass ("app", "FilterSettings")
    [mkField "order" (AClass "builtins" "int") true None None [("min", PNum 1); ("max", PNum 12); ("description", PStr "poles")];
     mkField "mode" (ALiteral "typing.Literal['low', 'high']" [PStr "low"; PStr "high"]) true (Some (PStr "low")) None [];
     mkField "taps" (AOther "list[float]") true None (Some (Some (PSeq KTuple [PNum 1; PNum 2]))) []].
Definition demo_kw : list (string * pv) := [("order", PNum 4)].
Definition demo_attrs : list (string * pv) := [("order", PNum 4); ("mode", PStr "low"); ("taps", PSeq KTuple [PNum 1; PNum 2])].

Definition pv_le (a b : pv) : Prop := exists m n, a = PNum m /\ b = PNum n /\ m <= n.

Example C83_case : exists d w,
  settings_schema_from_type demo_str demo_float demo_class = Schema d /\ ordinary demo_class /\ wf demo_class /\ explicit demo_class /\
  constructs demo_class demo_kw (all_set demo_attrs) /\
  settings_structured_value demo_str (instance demo_class "FilterSettings(...)" demo_attrs) = Some w /\
  c_fields d = [mkMeta "order" "builtins.int" true PNone (Some "poles") (Some (Some (PNum 1), Some (PNum 12))) None (Some "slider");
                mkMeta "mode" "typing.Literal['low', 'high']" false (PStr "low") None None (Some [PStr "low"; PStr "high"]) (Some "select");
                mkMeta "taps" "list[float]" false (PSeq KList [PNum 1; PNum 2]) None None None (Some "float_input")] /\
  entry w "taps" (PSeq KList [PNum 1; PNum 2]) /\ entry w "order" (PNum 4).
Proof.
  eexists. eexists. split; [vm_compute; reflexivity|].
  split; [intros s [<-|[<-|[<-|[]]]]; cbn; split; auto; discriminate|].
  split; [unfold wf; cbn; repeat constructor; cbn; intuition discriminate|]. split; [exact I|].
  split. { split; [intros k [<-|[]]; eexists; split; [left; reflexivity|split; reflexivity]|].
           attributes. }
  split; [vm_compute; reflexivity|]. split; [vm_compute; reflexivity|]. split; eexists; (split; [reflexivity|cbn; auto]).
Qed.

(* float() as in the case is faithful to an order. *)
Example C83_faithful : faithful (fun v => match v with PNum n => Some (PNum n) | _ => None end) pv_le.
Proof. intros v f x H. destruct v; try discriminate. injection H as <-. tauto. Qed.

(* ---- findings ---- *)

(** The type, the description and the choices are those declared (of a dataclass: unless its metadata give other
    choices, see C83_choices), and the name and kind of the class are given. *)
Theorem C83_declared : forall (str_of : pv -> string) (float_of : pv -> option pv) c d,
  settings_schema_from_type str_of float_of c = Schema d ->
  title c = Some (c_provider d, c_type d) /\
  Forall2 (fun e m =>
    m_type m = e_type e /\ m_doc m = e_doc e /\
    ((forall n fs, c <> CDataclass n fs) -> m_choices m = option_map (map (sanitize str_of)) (e_literal e)))
    (declares c) (c_fields d).
Proof.
  intros so fo c d H. destruct c as [n fs|n fs|n fs|n ps|]; cbn [settings_schema_from_type] in H; unfold describe in H;
    [| | | |discriminate]; (destruct (all_fields _ _) as [ms|] eqn:E; [|discriminate]); injection H as <-; (split; [reflexivity|]);
    cbn [c_fields declares]; apply all_fields_F2 in E.
  - induction E as [|f m fs ms F _ IH]; [constructor|]. cbn [map]. constructor;
      [|eapply F2_impl; [exact IH|]; intros e0 m0 _ (A & B & _); split; [exact A|]; split; [exact B|]; intros X; destruct (X _ _ eq_refl)].
    unfold dataclass_field in F. destruct (float_if_number fo (get_or "ge" "min" (f_meta f))) as [lo|]; [|discriminate].
    destruct (float_if_number fo (get_or "le" "max" (f_meta f))) as [hi|]; [|discriminate]. injection F as <-. cbn.
    split; [now destruct (f_type f)|]. split; [reflexivity|]. intros X. destruct (X _ _ eq_refl).
  - induction E as [|[k y] m fs ms F _ IH]; [constructor|]. cbn [map]. constructor; [|].
    + cbn in F. injection F as <-. cbn. split; [now destruct (y_ann y)|]. split; [reflexivity|]. now destruct (y_ann y).
    + eapply F2_impl; [exact IH|]. intros e0 m0 _ (A & B & C). split; [exact A|]. split; [exact B|]. intros _. apply C. discriminate.
  - induction E as [|[k y] m fs ms F _ IH]; [constructor|]. cbn [map]. constructor; [|].
    + unfold pydantic1_field in F. destruct (extract_bounds fo (y_limits y)) as [b|]; [|discriminate]. injection F as <-. cbn.
      split; [now destruct (y_ann y)|]. split; [reflexivity|]. now destruct (y_ann y).
    + eapply F2_impl; [exact IH|]. intros e0 m0 _ (A & B & C). split; [exact A|]. split; [exact B|]. intros _. apply C. discriminate.
  - assert (X : filter (fun e : string * prm => negb (String.eqb (fst e) "name")) ps =
                filter (fun e : string * prm => if dec (fst e) "name" then false else true) ps).
    { apply filter_ext. intros e. destruct (dec (fst e) "name") as [->|N]; [reflexivity|]. now rewrite (proj2 (String.eqb_neq _ _) N). }
    rewrite X. revert E. generalize (filter (fun e : string * prm => if dec (fst e) "name" then false else true) ps) as qs. intros qs E. clear X.
    induction E as [|[k q] m qs ms F _ IH]; [constructor|]. cbn [map]. constructor; [|exact IH]. unfold param_field in F.
    destruct (param_bounds fo (q_bounds q)) as [b|]; [|discriminate]. injection F as <-. cbn.
    split; [reflexivity|]. split; [reflexivity|]. intros _. destruct (q_objects q) as [[| | | | |isd l|kd l| |]|]; try reflexivity.
    + cbn. now rewrite map_map.
    + destruct kd; reflexivity.
Qed.
Print Assumptions C83_declared.

(** C83 finding: in a module with "from __future__ import annotations" every annotation is a str, so
    that the choices of a Literal are not described, whatever they are (settingsmeta.py:159, 108-115). *)
Theorem C83_postponed_annotation_loses_choices_refuted : forall (str_of : pv -> string) (float_of : pv -> option pv) cls name text vals default,
  exists m m', settings_schema_from_type str_of float_of (CDataclass cls [mkField name (ALiteral text vals) true (Some default) None []]) = Schema (mkSchema "dataclass" (fst cls ++ "." ++ snd cls) [m]) /\
    settings_schema_from_type str_of float_of (CDataclass cls [mkField name (AOther text) true (Some default) None []]) = Schema (mkSchema "dataclass" (fst cls ++ "." ++ snd cls) [m']) /\
    m_choices m = Some (map (sanitize str_of) vals) /\ m_choices m' = None.
Proof. intros. eexists. eexists. repeat split; reflexivity. Qed.
Print Assumptions C83_postponed_annotation_loses_choices_refuted.

(** C83 finding: choices given as a frozenset are ignored (settingsmeta.py:156). *)
Theorem C83_frozenset_choices_refuted : forall (str_of : pv -> string) (float_of : pv -> option pv) cls name m q vals,
  exists f, settings_schema_from_type str_of float_of (CDataclass cls [mkField name (AClass m q) true None None [("choices", PSeq KFrozenset vals)]]) = Schema (mkSchema "dataclass" (fst cls ++ "." ++ snd cls) [f]) /\
    m_choices f = None.
Proof. intros. eexists. split; reflexivity. Qed.
Print Assumptions C83_frozenset_choices_refuted.

(** C83 finding: the widget is chosen by substrings of the type's full name (settingsmeta.py:91-105):
    every class whose name or module contains "int" (Point, Interval, ...), and dict[str, int], gets
    the integer widget, unless the name also contains "bool". *)
Theorem C83_widget_by_substring_refuted :
  (forall (str_of : pv -> string) (float_of : pv -> option pv) cls name modname a b, contains "bool" (lower (modname ++ "." ++ a ++ "int" ++ b)) = false ->
     exists f, settings_schema_from_type str_of float_of (CDataclass cls [mkField name (AClass modname (a ++ "int" ++ b)) true None None []]) = Schema (mkSchema "dataclass" (fst cls ++ "." ++ snd cls) [f]) /\
       m_hint f = Some "int_input") /\
  contains "bool" (lower ("shapes" ++ "." ++ "Po" ++ "int" ++ "")) = false.
Proof.
  split; [|reflexivity]. intros so fo cls name md a b H.
  assert (E : widget_hint (md ++ "." ++ a ++ "int" ++ b) None None = Some "int_input").
  { unfold widget_hint. rewrite H.
    replace (lower (md ++ "." ++ a ++ "int" ++ b)) with ((lower md ++ "." ++ lower a) ++ "int" ++ lower b).
    - now rewrite contains_app.
    - rewrite !lower_app. assert (A : forall x y z : string, (x ++ y) ++ z = x ++ (y ++ z)) by (induction x as [|c x IH]; intros; cbn; [reflexivity|now rewrite IH]).
      rewrite !A. reflexivity. }
  eexists. split; [reflexivity|exact E].
Qed.
Print Assumptions C83_widget_by_substring_refuted.

(** C83 finding: a param.Number, with bounds or without, gets no widget at all. *)
Theorem C83_param_number_has_no_widget_refuted : forall (str_of : pv -> string) (float_of : pv -> option pv) cls name default doc lo hi flo fhi,
  name <> "name" -> numeric lo = true -> numeric hi = true -> float_of lo = Some flo -> float_of hi = Some fhi ->
  exists f, settings_schema_from_type str_of float_of (CParam cls [(name, mkPrm ("param.parameters", "Number") default doc None (Some (PSeq KTuple [lo; hi])))]) = Schema (mkSchema "param" (fst cls ++ "." ++ snd cls) [f]) /\
    m_bounds f = Some (Some flo, Some fhi) /\ m_hint f = None.
Proof.
  intros so fo cls name default doc lo hi flo fhi N NL NH FL FH. change (is_number lo = true) in NL. change (is_number hi = true) in NH. unfold settings_schema_from_type. cbn [filter fst]. destruct (dec name "name"); [congruence|]. cbn [all_fields]. unfold param_field at 1. cbn [q_bounds q_objects q_type q_default q_doc].
  unfold param_bounds. rewrite NL, NH. replace (match lo with PNone => true | _ => true end) with true by now destruct lo. replace (match hi with PNone => true | _ => true end) with true by now destruct hi.
  cbn [andb float_if_number]. unfold float_if_number. rewrite NL, NH, FL, FH. cbn [option_map describe]. eexists. split; [reflexivity|]. split; reflexivity.
Qed.
Print Assumptions C83_param_number_has_no_widget_refuted.

(** C83 finding: the default of a pydantic field with default_factory is described as the string
    "PydanticUndefined" (version 2, settingsmeta.py:207-208) or as None (version 1, 239), whatever
    the factory makes. *)
Theorem C83_pydantic_factory_default_refuted : forall (str_of : pv -> string) (float_of : pv -> option pv) cls name m q v,
  let y := mkPyd (AClass m q) None (Some (Some v)) None [] in
  (exists f, settings_schema_from_type str_of float_of (CPydantic2 cls [(name, y)]) = Schema (mkSchema "pydantic" (fst cls ++ "." ++ snd cls) [f]) /\
     m_required f = false /\ m_default f = PStr "PydanticUndefined") /\
  (exists f, settings_schema_from_type str_of float_of (CPydantic1 cls [(name, y)]) = Schema (mkSchema "pydantic" (fst cls ++ "." ++ snd cls) [f]) /\
     m_required f = false /\ m_default f = PNone) /\
  constructs (CPydantic2 cls [(name, y)]) [] (all_set [(name, v)]).
Proof.
  intros so fo cls name m q v y. split; [|split].
  - eexists. split; [reflexivity|split; reflexivity].
  - eexists. split; [reflexivity|split; reflexivity].
  - split; [intros k []|]. attributes.
Qed.
Print Assumptions C83_pydantic_factory_default_refuted.

(** C83 finding: the limits of a pydantic 2 field are never described (settingsmeta.py:211, 118-134). *)
Theorem C83_pydantic2_limits_refuted : forall (str_of : pv -> string) (float_of : pv -> option pv) cls fs d m,
  settings_schema_from_type str_of float_of (CPydantic2 cls fs) = Schema d -> In m (c_fields d) -> m_bounds m = None.
Proof.
  intros so fo cls fs d m. cbn [settings_schema_from_type]. unfold describe. destruct (all_fields _ fs) as [ms|] eqn:E; [|discriminate]. intros [= <-] I. cbn [c_fields] in I.
  destruct (F2_In_r _ _ _ _ (all_fields_F2 _ _ _ E) I) as [[k y] [_ H]]. cbn in H. injection H as <-. reflexivity.
Qed.
Print Assumptions C83_pydantic2_limits_refuted.

(** C83 finding: a bound that float() cannot represent (an int of more than 1024 bits) makes the
    description, and with it starting the system (backend.py:579, 726), raise OverflowError, though
    instances can be constructed. *)
Theorem C83_large_bound_raises_refuted : forall (str_of : pv -> string) (float_of : pv -> option pv) cls name m q n,
  float_of (PNum n) = None ->
  let c := CDataclass cls [mkField name (AClass m q) true (Some (PNum 0)) None [("max", PNum n)]] in
  settings_schema_from_type str_of float_of c = Raises /\ constructs c [] (all_set [(name, PNum 0)]).
Proof.
  intros so fo cls name m q n H. split.
  - cbn [settings_schema_from_type all_fields]. unfold dataclass_field. cbn. rewrite H. reflexivity.
  - split; [intros k []|]. attributes.
Qed.
Print Assumptions C83_large_bound_raises_refuted.

(** C83 finding: a field with init=False and no default is described as required, but passing it
    raises and leaving it out does not (settingsmeta.py:144). *)
Theorem C83_init_false_refuted : forall (str_of : pv -> string) (float_of : pv -> option pv) cls name m q v,
  let c := CDataclass cls [mkField name (AClass m q) false None None []] in
  (exists f, settings_schema_from_type str_of float_of c = Schema (mkSchema "dataclass" (fst cls ++ "." ++ snd cls) [f]) /\ m_required f = true) /\
  constructs c [] [(name, None)] /\ forall attrs, ~ constructs c [(name, v)] attrs.
Proof.
  intros so fo cls name m q v c. split; [|split].
  - eexists. split; reflexivity.
  - split; [intros k []|]. attributes.
  - intros attrs [K _]. destruct (K name (or_introl eq_refl)) as [s [[<-|[]] [_ P]]]. discriminate.
Qed.
Print Assumptions C83_init_false_refuted.

(** C83 finding: a default factory that raises is described as a default "<factory>" of an optional
    field, but the class cannot be called without the field. *)
Theorem C83_raising_factory_refuted : forall (str_of : pv -> string) (float_of : pv -> option pv) cls name m q,
  let c := CDataclass cls [mkField name (AClass m q) true None (Some None) []] in
  (exists f, settings_schema_from_type str_of float_of c = Schema (mkSchema "dataclass" (fst cls ++ "." ++ snd cls) [f]) /\ m_required f = false /\ m_default f = PStr "<factory>") /\
  forall attrs, ~ constructs c [] attrs.
Proof.
  intros so fo cls name m q c. split; [eexists; split; [reflexivity|split; reflexivity]|].
  intros attrs [_ F]. inversion F as [|s a l l' [_ A] F']; subst. inversion A; cbn in *; congruence.
Qed.
Print Assumptions C83_raising_factory_refuted.
