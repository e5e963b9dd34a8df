(* Model of updating one field of a settings object:
     backendprocess.py:260-296  DefaultBackendProcess._replace_settings_field,
     backendprocess.py:298-324  DefaultBackendProcess._patch_object_field.

   Settings live in a heap of Python objects; a value is an atom or a reference,
   so that "the original object is not modified" is a claim about the heap.

   Simplifications: an object never holds a reference to a younger one (the heap
   has no cycles); deepcopy does not keep sharing inside the copy (the copy is
   the same tree); keys of a mapping are strings; a dataclass has no
   __post_init__ and no default factory for a field left out of __init__; setattr on a copied
   plain object succeeds; the various exceptions are one failure. *)

From Coq Require Import String Ascii List Arith Bool.
From Verif Require Import Dict.
Import ListNotations.

(** An immutable scalar is known by its identity. *)
Inductive value := VAtom (a : nat) | VRef (i : nat).

Notation attrs := (list (string * value)).

(** dataclasses.field: its name, its [init] flag and its default. *)
Record field := mkField { f_name : string; f_init : bool; f_default : option value }.

(** An object.  [cls] holds what getattr finds on the class (methods, properties).
    - [OMap]: a Mapping;
    - [OData]: an instance of a dataclass with the fields [fs];
    - [OModel]: an object with model_copy(update=...), or whose copy(update=...)
      works (pydantic);
    - [OPlain]: any other object with attributes;
    - [OSeq]: a list, tuple or other object whose attributes cannot be set. *)
Inductive object :=
| OMap (d : attrs)
| OData (fs : list field) (a cls : attrs)
| OModel (a cls : attrs)
| OPlain (a cls : attrs)
| OSeq (l : list value).

Notation heap := (list object).

(** A new object. *)
Definition alloc (o : object) (h : heap) : heap * value := (h ++ [o], VRef (length h)).

(** Python: [h[i] = o], an object changed in place. *)
Fixpoint update (i : nat) (o : object) (h : heap) : heap :=
  match h, i with
  | [], _ => []
  | _ :: r, 0 => o :: r
  | x :: r, S i => x :: update i o r
  end.

(** Python: [getattr(o, name)] / [hasattr(o, name)]. *)
Definition getattr (o : object) (name : string) : option value :=
  match o with
  | OMap _ | OSeq _ => None
  | OData _ a cls | OModel a cls | OPlain a cls =>
      match get name a with Some v => Some v | None => get name cls end
  end.

(** Python: [setattr(o, name, v)] on the object at [i]. *)
Definition setattr (h : heap) (i : nat) (name : string) (v : value) : heap :=
  match nth_error h i with
  | Some (OPlain a cls) => update i (OPlain (put name v a) cls) h
  | Some (OModel a cls) => update i (OModel (put name v a) cls) h
  | Some (OData fs a cls) => update i (OData fs (put name v a) cls) h
  | _ => h
  end.

(** copy.deepcopy, children first. *)
Section Deepcopy.
  Context (rec : heap -> value -> heap * value).

  Fixpoint copy_attrs (h : heap) (a : attrs) : heap * attrs :=
    match a with
    | [] => (h, [])
    | (k, v) :: r =>
        let (h1, v') := rec h v in
        let (h2, r') := copy_attrs h1 r in (h2, (k, v') :: r')
    end.

  Fixpoint copy_values (h : heap) (l : list value) : heap * list value :=
    match l with
    | [] => (h, [])
    | v :: r =>
        let (h1, v') := rec h v in
        let (h2, r') := copy_values h1 r in (h2, v' :: r')
    end.

  Definition copy_object (h : heap) (o : object) : heap * object :=
    match o with
    | OMap d => let (h1, d') := copy_attrs h d in (h1, OMap d')
    | OData fs a cls => let (h1, a') := copy_attrs h a in (h1, OData fs a' cls)
    | OModel a cls => let (h1, a') := copy_attrs h a in (h1, OModel a' cls)
    | OPlain a cls => let (h1, a') := copy_attrs h a in (h1, OPlain a' cls)
    | OSeq l => let (h1, l') := copy_values h l in (h1, OSeq l')
    end.
End Deepcopy.

Fixpoint deepcopy_upto (n : nat) (h : heap) (v : value) : heap * value :=
  match v, n with
  | VRef i, S n =>
      match nth_error h i with
      | Some o => let (h1, o') := copy_object (deepcopy_upto n) h o in alloc o' h1
      | None => (h, v)
      end
  | _, _ => (h, v)
  end.

Definition deepcopy (h : heap) (v : value) : heap * value := deepcopy_upto (length h) h v.

(** dataclasses.replace(obj, name=v): the fields of __init__ are taken from the
    object, the others get their defaults; naming a field that is not an argument of
    __init__ is an error. *)
Fixpoint replace_fields (fs : list field) (o : object) (name : string) (v : value) : option attrs :=
  match fs with
  | [] => Some []
  | f :: r =>
      match replace_fields r o name v with
      | None => None
      | Some rest =>
          if f_init f then
            if eqd (f_name f) name then Some ((f_name f, v) :: rest)
            else match getattr o (f_name f) with
                 | Some x => Some ((f_name f, x) :: rest)
                 | None => None
                 end
          else if eqd (f_name f) name then None
          else match f_default f with
               | Some x => Some ((f_name f, x) :: rest)
               | None => Some rest
               end
      end
  end.

(** backendprocess.py:298-324 — _patch_object_field. *)
Definition patch_object_field (h : heap) (i : nat) (name : string) (v : value) : heap * option value :=
  match nth_error h i with
  | Some (OData fs a cls) =>
      if mem name (map f_name fs) then
        match replace_fields fs (OData fs a cls) name v with
        | Some a' => let (h1, r) := alloc (OData fs a' cls) h in (h1, Some r)
        | None => (h, None)
        end
      else (h, None)
  | Some (OModel a cls) => let (h1, r) := alloc (OModel (put name v a) cls) h in (h1, Some r)
  | Some (OPlain a cls) =>
      match getattr (OPlain a cls) name with
      | Some _ =>
          let (h1, r) := deepcopy h (VRef i) in
          match r with
          | VRef j => (setattr h1 j name v, Some r)
          | VAtom _ => (h1, None)
          end
      | None => (h, None)
      end
  | _ => (h, None)
  end.

(** backendprocess.py:267-294 — the inner function [apply]; [path] is what is left of
    the path. *)
Fixpoint apply_path (path : list string) (v : value) (h : heap) (current : value)
  : heap * option value :=
  match path, current with
  | name :: rest, VRef i =>
      match nth_error h i with
      | Some (OMap d) =>
          match get name d with
          | None => (h, None)
          | Some child =>
              match rest with
              | [] => let (h1, r) := alloc (OMap (put name v d)) h in (h1, Some r)
              | _ :: _ =>
                  match apply_path rest v h child with
                  | (h1, Some c) => let (h2, r) := alloc (OMap (put name c d)) h1 in (h2, Some r)
                  | (h1, None) => (h1, None)
                  end
              end
          end
      | Some o =>
          match getattr o name with
          | None => (h, None)
          | Some child =>
              match rest with
              | [] => patch_object_field h i name v
              | _ :: _ =>
                  match apply_path rest v h child with
                  | (h1, Some c) => patch_object_field h1 i name c
                  | (h1, None) => (h1, None)
                  end
              end
          end
      | None => (h, None)
      end
  | _, _ => (h, None)
  end.

(** Python: [s.split(".")]. *)
Fixpoint split_dot (s : string) : list string :=
  match s with
  | EmptyString => [EmptyString]
  | String c r =>
      if ascii_dec c "."%char then EmptyString :: split_dot r
      else match split_dot r with
           | w :: ws => String c w :: ws
           | [] => [String c EmptyString]
           end
  end.

(** backendprocess.py:260-296 — _replace_settings_field. *)
Definition replace_settings_field (h : heap) (settings : value) (field_path : string) (v : value)
  : heap * option value :=
  match field_path with
  | EmptyString => (h, None)
  | _ => apply_path (split_dot field_path) v h settings
  end.
