(* What a settings class means to a program that constructs it, independently of its
   description. *)

From Coq Require Import String List Bool.
From Verif Require Import Dict SanitizeModel SchemaModel.
Import ListNotations.
Local Open Scope string_scope.

(** One attribute of the instances: whether it can be passed to the constructor, and what it
    is if it is not passed: nothing, a value, or ([Some None]) computing it raises. *)
Record slot := mkSlot { s_name : string; s_passable : bool; s_fallback : option (option pv) }.

Definition fallback (default : option pv) (factory : option (option pv)) : option (option pv) :=
  match default with Some v => Some (Some v) | None => factory end.

(** dataclass, pydantic.BaseModel and param.Parameterized. *)
Definition slots (c : settings_class) : list slot :=
  match c with
  | CDataclass _ fs => map (fun f => mkSlot (f_name f) (f_init f) (fallback (f_default f) (f_factory f))) fs
  | CPydantic2 _ fs | CPydantic1 _ fs => map (fun e => mkSlot (fst e) true (fallback (y_default (snd e)) (y_factory (snd e)))) fs
  | CParam _ ps => map (fun e => mkSlot (fst e) true (Some (Some (q_default (snd e))))) ps
  | COther => []
  end.

(** What an attribute is, given the keyword arguments [kw]; [None]: not set. *)
Inductive attribute (kw : list (string * pv)) (s : slot) : option pv -> Prop :=
| a_passed v : s_passable s = true -> get (s_name s) kw = Some v -> attribute kw s (Some v)
| a_fallback v : get (s_name s) kw = None -> s_fallback s = Some (Some v) -> attribute kw s (Some v)
| a_unset : get (s_name s) kw = None -> s_fallback s = None -> s_passable s = false -> attribute kw s None.

(** Calling the class with keyword arguments [kw] succeeds, giving these attributes. *)
Definition constructs (c : settings_class) (kw : list (string * pv)) (attrs : list (string * option pv)) : Prop :=
  (forall k, In k (keys kw) -> exists s, In s (slots c) /\ s_name s = k /\ s_passable s = true) /\
  Forall2 (fun s a => fst a = s_name s /\ attribute kw s (snd a)) (slots c) attrs.

(** Python lets no class have two attributes of one name. *)
Definition wf (c : settings_class) : Prop := NoDup (map s_name (slots c)).
(** Every field can be passed, and no default factory raises. *)
Definition ordinary (c : settings_class) : Prop :=
  forall s, In s (slots c) -> s_passable s = true /\ s_fallback s <> Some None.
(** No pydantic field uses default_factory. *)
Definition explicit (c : settings_class) : Prop :=
  match c with
  | CPydantic2 _ fs | CPydantic1 _ fs => forall n y, In (n, y) fs -> y_factory y = None
  | _ => True
  end.

(** The instance with these attributes, all set, as settings_structured_value sees it. *)
Definition items (attrs : list (string * pv)) : list (pv * pv) := map (fun a => (PStr (fst a), snd a)) attrs.
Definition instance (c : settings_class) (repr : string) (attrs : list (string * pv)) : pv :=
  match c with
  | CDataclass _ _ => PData repr attrs
  | CPydantic2 _ _ => PObj repr true (Some (items attrs)) None None
  | CPydantic1 _ _ => PObj repr true None (Some (items attrs)) None
  | CParam _ _ => PObj repr true None None (Some (items attrs))
  | COther => PObj repr true None None None
  end.

(** Attributes that are all set. *)
Definition all_set (attrs : list (string * pv)) : list (string * option pv) := map (fun a => (fst a, Some (snd a))) attrs.

(** The entry of a plain dict. *)
Definition entry (d : pv) (k : string) (v : pv) : Prop := exists l, d = PDict true l /\ In (PStr k, v) l.
Definition entries (d : pv) (ks : list string) : Prop := exists l, d = PDict true l /\ map fst l = map PStr ks.

(** A value lies within bounds, for an order on values. *)
Definition within (le : pv -> pv -> Prop) (b : option (option pv * option pv)) (x : pv) : Prop :=
  match b with
  | None => True
  | Some (lo, hi) => match lo with Some l => le l x | None => True end /\ match hi with Some h => le x h | None => True end
  end.
(** float() keeps the place of a number in the order. *)
Definition faithful (float_of : pv -> option pv) (le : pv -> pv -> Prop) : Prop :=
  forall v f x, float_of v = Some f -> (le v x <-> le f x) /\ (le x v <-> le x f).
(** Python's numbers among the values: bool, int and float. *)
Definition numeric (v : pv) : bool := match v with PBool _ | PNum _ => true | _ => false end.
(** The limits declared for a field hold of [x].  A dataclass declares them by metadata "ge" or
    "min" and "le" or "max"; pydantic by ge, gt, le, lt; param by bounds. *)
Definition limit (le : pv -> pv -> Prop) (x : pv) (n : string) (b : pv) : Prop :=
  (In n ["ge"; "min"] -> le b x) /\ (n = "gt" -> le b x /\ b <> x) /\
  (In n ["le"; "max"] -> le x b) /\ (n = "lt" -> le x b /\ b <> x).
Definition limits (le : pv -> pv -> Prop) (x : pv) (l : list (string * pv)) : Prop :=
  forall n b, In (n, b) l -> numeric b = true -> limit le x n b.

(** The widget for the plain types. *)
Definition plain_hint (t : string) (bounded : bool) : option string :=
  if dec t "bool" then Some "checkbox"
  else if dec t "int" then Some (if bounded then "slider" else "int_input")
  else if dec t "float" then Some (if bounded then "slider" else "float_input")
  else if dec t "str" then Some "text_input"
  else None.

(** What a class declares of each field, besides its name and default: how the type is written, the description,
    and the arguments of Literal, or the objects of a parameter (of a dict: its keys). *)
Record declaration := mkDecl { e_type : string; e_doc : option string; e_literal : option (list pv) }.
Definition written (a : ann) : string := match a with AClass m q => m ++ "." ++ q | ALiteral t _ | AOther t => t end.
Definition literal (a : ann) : option (list pv) := match a with ALiteral _ l => Some l | _ => None end.
Definition declares (c : settings_class) : list declaration :=
  match c with
  | CDataclass _ fs => map (fun f => mkDecl (written (f_type f))
                                       (match get "description" (f_meta f) with Some (PStr s) => Some s | _ => None end)
                                       (literal (f_type f))) fs
  | CPydantic2 _ fs | CPydantic1 _ fs => map (fun e => mkDecl (written (y_ann (snd e))) (y_doc (snd e)) (literal (y_ann (snd e)))) fs
  | CParam _ ps =>
      map (fun e => mkDecl (fst (q_type (snd e)) ++ "." ++ snd (q_type (snd e))) (q_doc (snd e))
                      (match q_objects (snd e) with
                       | Some (PSeq KFrozenset _) => None
                       | Some (PSeq _ l) => Some l
                       | Some (PDict _ l) => Some (map fst l)
                       | _ => None
                       end))
          (filter (fun e => negb (String.eqb (fst e) "name")) ps)
  | COther => []
  end.
(** The name of the class, and its kind. *)
Definition title (c : settings_class) : option (string * string) :=
  match c with
  | CDataclass n _ => Some ("dataclass", fst n ++ "." ++ snd n)
  | CPydantic2 n _ | CPydantic1 n _ => Some ("pydantic", fst n ++ "." ++ snd n)
  | CParam n _ => Some ("param", fst n ++ "." ++ snd n)
  | COther => None
  end.
