(* Model of the description of a settings type that is published with the graph:
     settingsmeta.py:11-14   _type_name,
     settingsmeta.py:85-105  _widget_hint,
     settingsmeta.py:108-115 _choices_from_annotation,
     settingsmeta.py:118-134 _extract_bounds,
     settingsmeta.py:137-323 settings_schema_from_type,
     settingsmeta.py:326-329 settings_schema_from_value,
     graphmeta.py:88-103     SettingsFieldMetadata, SettingsSchemaMetadata,
   on the values of SanitizeModel.v.

   A class is known by what the code looks at: the fields of a dataclass, the fields
   of a pydantic model (version 2 or 1), the parameters of a param.Parameterized.

   Simplifications: a default factory returns equal values each time it is called, or
   always raises; a metadata dict has distinct string keys; lower-casing is that of
   ASCII; [float] of a number is a function the theorems quantify over ([None]: it raises
   OverflowError); of a class that is neither of the four kinds only that there is
   no schema is said.  What pydantic and param offer on their field objects is stated
   at [pyd] and [prm]. *)

From Coq Require Import String Ascii List Arith Bool.
From Verif Require Import Dict SanitizeModel.
Import ListNotations.
Local Open Scope string_scope.

(** An annotation: a class with its module and qualified name; typing.Literal with its
    arguments; anything else (generic types, unions, and every annotation of a module with
    "from __future__ import annotations", which is a str), known by its [str]. *)
Inductive ann :=
| AClass (modname qualname : string)
| ALiteral (text : string) (vals : list pv)
| AOther (text : string).

(** settingsmeta.py:11-14 *)
Definition type_name (a : ann) : string :=
  match a with
  | AClass m q => m ++ "." ++ q
  | ALiteral t _ => t
  | AOther t => t
  end.

(** dataclasses.Field: its name, type, init flag, default, default_factory (whose call
    gives a value or raises) and metadata. *)
Record dfield := mkField {
  f_name : string;
  f_type : ann;
  f_init : bool;
  f_default : option pv;                 (* None: MISSING *)
  f_factory : option (option pv);        (* None: MISSING; Some None: raises *)
  f_meta : list (string * pv)
}.

(** A pydantic field as declared: annotation, default, default_factory, description and the
    limits given to Field(): ge, gt, min_length, le, lt, max_length. *)
Record pyd := mkPyd {
  y_ann : ann;
  y_default : option pv;
  y_factory : option (option pv);
  y_doc : option string;
  y_limits : list (string * pv)
}.

(** A param.Parameter: its class, default, doc, and the attributes objects and bounds if it
    has them. *)
Record prm := mkPrm {
  q_type : string * string;
  q_default : pv;
  q_doc : option string;
  q_objects : option pv;
  q_bounds : option pv
}.

Inductive settings_class :=
| CDataclass (name : string * string) (fs : list dfield)
| CPydantic2 (name : string * string) (fs : list (string * pyd))
| CPydantic1 (name : string * string) (fs : list (string * pyd))
| CParam (name : string * string) (ps : list (string * prm))
| COther.

(** graphmeta.py:88-103 *)
Record field_meta := mkMeta {
  m_name : string;
  m_type : string;
  m_required : bool;
  m_default : pv;
  m_doc : option string;
  m_bounds : option (option pv * option pv);
  m_choices : option (list pv);
  m_hint : option string
}.
Record schema := mkSchema { c_provider : string; c_type : string; c_fields : list field_meta }.

(** str.lower and the substring test [in], on ASCII. *)
Definition lower_ascii (c : ascii) : ascii :=
  let n := nat_of_ascii c in
  if Nat.leb 65 n && Nat.leb n 90 then ascii_of_nat (n + 32) else c.
Fixpoint lower (s : string) : string :=
  match s with EmptyString => EmptyString | String c r => String (lower_ascii c) (lower r) end.
Fixpoint contains (sub s : string) : bool :=
  prefix sub s || match s with EmptyString => false | String _ r => contains sub r end.

(** isinstance(v, (int, float)); bool is an int. *)
Definition is_number (v : pv) : bool := match v with PBool _ | PNum _ => true | _ => false end.

(** isinstance(v, str) *)
Definition as_text (v : option pv) : option string :=
  match v with Some (PStr s) => Some s | _ => None end.

Section Schema.

Context (str_of : pv -> string) (float_of : pv -> option pv).
Notation sanitize := (sanitize str_of).

(** settingsmeta.py:85-105 *)
Definition widget_hint (ft : string) (choices : option (list pv)) (bounds : option (option pv * option pv)) : option string :=
  let l := lower ft in
  match choices with
  | Some (_ :: _) => Some "select"
  | _ =>
      if contains "bool" l then Some "checkbox"
      else if match bounds with Some _ => contains "int" l || contains "float" l | None => false end then Some "slider"
      else if contains "int" l then Some "int_input"
      else if contains "float" l then Some "float_input"
      else if contains "str" l then Some "text_input"
      else None
  end.

(** settingsmeta.py:108-115 *)
Definition choices_from_annotation (a : ann) : option (list pv) :=
  match a with ALiteral _ vals => Some (map sanitize vals) | _ => None end.

(** float(v) if it is a number; the outer [None]: raises. *)
Definition float_if_number (v : option pv) : option (option pv) :=
  match v with
  | Some x => if is_number x then option_map Some (float_of x) else Some None
  | None => Some None
  end.

(** The first of the attributes that is there and is a number (settingsmeta.py:121-126). *)
Fixpoint first_number (names : list string) (attrs : list (string * pv)) : option pv :=
  match names with
  | [] => None
  | n :: r => match get n attrs with
              | Some v => if is_number v then Some v else first_number r attrs
              | None => first_number r attrs
              end
  end.

(** settingsmeta.py:118-134; [attrs] are the attributes of the object. *)
Definition extract_bounds (attrs : list (string * pv)) : option (option (option pv * option pv)) :=
  match float_if_number (first_number ["ge"; "gt"; "min_length"] attrs),
        float_if_number (first_number ["le"; "lt"; "max_length"] attrs) with
  | Some None, Some None => Some None
  | Some lo, Some hi => Some (Some (lo, hi))
  | _, _ => None
  end.

(** metadata.get(a, metadata.get(b)) (settingsmeta.py:162-163). *)
Definition get_or (a b : string) (d : list (string * pv)) : option pv :=
  match get a d with Some v => Some v | None => get b d end.

(** settingsmeta.py:143-187: one field of a dataclass. *)
Definition dataclass_field (f : dfield) : option field_meta :=
  let required := match f_default f, f_factory f with None, None => true | _, _ => false end in
  let default := match f_default f with
                 | Some v => sanitize v
                 | None => match f_factory f with
                           | Some (Some v) => sanitize v
                           | Some None => PStr "<factory>"
                           | None => PNone
                           end
                 end in
  let choices := match get "choices" (f_meta f) with
                 | Some (PSeq KFrozenset _) => choices_from_annotation (f_type f)
                 | Some (PSeq _ l) => Some (map sanitize l)
                 | _ => choices_from_annotation (f_type f)
                 end in
  match float_if_number (get_or "ge" "min" (f_meta f)), float_if_number (get_or "le" "max" (f_meta f)) with
  | Some lo, Some hi =>
      let bounds := match lo, hi with None, None => None | _, _ => Some (lo, hi) end in
      let ft := type_name (f_type f) in
      Some (mkMeta (f_name f) ft required default (as_text (get "description" (f_meta f))) bounds choices
                   (widget_hint ft choices bounds))
  | _, _ => None
  end.

(** pydantic: FieldInfo.default is the object PydanticUndefined if no default was given. *)
Definition undefined : pv := PObj "PydanticUndefined" true None None None.

(** settingsmeta.py:198-225: one field of a pydantic 2 model.  FieldInfo keeps the limits as
    entries of its metadata list, so that it has no attribute ge, gt, ...; is_required() says
    that there is neither default nor factory. *)
Definition pydantic2_field (e : string * pyd) : option field_meta :=
  let '(name, y) := e in
  let required := match y_default y, y_factory y with None, None => true | _, _ => false end in
  let default := if required then PNone else sanitize (match y_default y with Some v => v | None => undefined end) in
  let choices := choices_from_annotation (y_ann y) in
  let ft := type_name (y_ann y) in
  match extract_bounds [] with
  | Some bounds => Some (mkMeta name ft required default (y_doc y) bounds choices (widget_hint ft choices bounds))
  | None => None
  end.

(** settingsmeta.py:236-258: one field of a pydantic 1 model.  ModelField.default is None if
    there is a factory; its field_info has the limits as attributes. *)
Definition pydantic1_field (e : string * pyd) : option field_meta :=
  let '(name, y) := e in
  let required := match y_default y, y_factory y with None, None => true | _, _ => false end in
  let default := if required then PNone else sanitize (match y_default y with Some v => v | None => PNone end) in
  let choices := choices_from_annotation (y_ann y) in
  let ft := type_name (y_ann y) in
  match extract_bounds (y_limits y) with
  | Some bounds => Some (mkMeta name ft required default (y_doc y) bounds choices (widget_hint ft choices bounds))
  | None => None
  end.

(** settingsmeta.py:284-297: the bounds of a parameter. *)
Definition param_bounds (b : option pv) : option (option (option pv * option pv)) :=
  match b with
  | Some (PSeq KTuple [lo; hi]) =>
      let ok v := match v with PNone => true | _ => is_number v end in
      if ok lo && ok hi then
        match float_if_number (Some lo), float_if_number (Some hi) with
        | Some l, Some h => Some (Some (l, h))
        | _, _ => None
        end
      else Some None
  | _ => Some None
  end.

(** settingsmeta.py:274-315: one parameter. *)
Definition param_field (e : string * prm) : option field_meta :=
  let '(name, q) := e in
  let choices := match q_objects q with
                 | Some (PDict _ l) => Some (map (fun p => sanitize (fst p)) l)
                 | Some (PSeq KFrozenset _) => None
                 | Some (PSeq _ l) => Some (map sanitize l)
                 | _ => None
                 end in
  let ft := type_name (AClass (fst (q_type q)) (snd (q_type q))) in
  match param_bounds (q_bounds q) with
  | Some bounds => Some (mkMeta name ft false (sanitize (q_default q)) (q_doc q) bounds choices (widget_hint ft choices bounds))
  | None => None
  end.

Fixpoint all_fields {A} (f : A -> option field_meta) (l : list A) : option (list field_meta) :=
  match l with
  | [] => Some []
  | x :: r => match f x, all_fields f r with Some m, Some ms => Some (m :: ms) | _, _ => None end
  end.

Inductive outcome := Raises | NoSchema | Schema (s : schema).
Definition describe provider (name : string * string) (l : option (list field_meta)) : outcome :=
  match l with
  | Some ms => Schema (mkSchema provider (fst name ++ "." ++ snd name) ms)
  | None => Raises
  end.

(** settingsmeta.py:137-323; settings_schema_from_value is the same on the value's class. *)
Definition settings_schema_from_type (c : settings_class) : outcome :=
  match c with
  | CDataclass n fs => describe "dataclass" n (all_fields dataclass_field fs)
  | CPydantic2 n fs => describe "pydantic" n (all_fields pydantic2_field fs)
  | CPydantic1 n fs => describe "pydantic" n (all_fields pydantic1_field fs)
  | CParam n ps => describe "param" n (all_fields param_field (filter (fun e => if dec (fst e) "name" then false else true) ps))
  | COther => NoSchema
  end.

End Schema.
