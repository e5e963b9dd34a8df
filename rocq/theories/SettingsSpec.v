(* What a settings value looks like from outside: a tree.  [node h v q] is what
   is found by walking from [v] along [q]; two values with the same nodes at every
   path are equal Python values. *)

From Coq Require Import String Ascii List Arith Bool.
From Verif Require Import Dict SettingsModel.
Import ListNotations.

(** One step into a value: [v.name] or [v["name"]], or [v[n]]. *)
Inductive step := SKey (name : string) | SIdx (n : nat).

(** What is seen at one place: a scalar, or the class of the object and the names (or the number) of its parts. *)
Inductive label :=
| LAtom (a : nat)
| LMap (ks : list string)
| LData (fs : list field) (ks : list string) (cls : list (string * value))
| LModel (ks : list string) (cls : list (string * value))
| LPlain (ks : list string) (cls : list (string * value))
| LSeq (n : nat).

Definition label_of (o : object) : label :=
  match o with
  | OMap d => LMap (keys d)
  | OData fs a cls => LData fs (keys a) cls
  | OModel a cls => LModel (keys a) cls
  | OPlain a cls => LPlain (keys a) cls
  | OSeq l => LSeq (length l)
  end.

Definition part (o : object) (st : step) : option value :=
  match o, st with
  | OMap d, SKey n => get n d
  | OSeq l, SIdx n => nth_error l n
  | OData _ _ _, SKey n | OModel _ _, SKey n | OPlain _ _, SKey n => getattr o n
  | _, _ => None
  end.

Fixpoint node (h : heap) (v : value) (q : list step) : option label :=
  match v, q with
  | VAtom a, [] => Some (LAtom a)
  | VRef i, [] => option_map label_of (nth_error h i)
  | VRef i, st :: q' =>
      match nth_error h i with
      | Some o => match part o st with Some c => node h c q' | None => None end
      | None => None
      end
  | VAtom _, _ :: _ => None
  end.

Definition starts_with (p q : list step) : Prop := exists r, q = p ++ r.

(** References go to older objects only, and exist. *)
Definition below (n : nat) (v : value) : Prop :=
  match v with VAtom _ => True | VRef i => i < n end.

Definition parts (o : object) : list value :=
  match o with
  | OMap d => map snd d
  | OData fs a cls =>
      map snd a ++ map snd cls ++
      flat_map (fun f => match f_default f with Some v => [v] | None => [] end) fs
  | OModel a cls | OPlain a cls => map snd a ++ map snd cls
  | OSeq l => l
  end.

Definition well_founded_heap (h : heap) : Prop :=
  forall i o, nth_error h i = Some o -> Forall (below i) (parts o).

(** A field of the object itself (not a method or property of its class). *)
Definition own_field (o : object) (name : string) : option value :=
  match o with
  | OMap d => get name d
  | OData _ a _ | OModel a _ | OPlain a _ => get name a
  | OSeq _ => None
  end.

(** A dataclass instance all of whose fields are arguments of __init__, holding
    those fields and nothing else. *)
Definition ordinary (o : object) : Prop :=
  match o with
  | OData fs a _ => keys a = map f_name fs /\ NoDup (map f_name fs) /\ Forall (fun f => f_init f = true) fs
  | _ => True
  end.

(** The path leads through fields of ordinary objects. *)
Fixpoint field_path (h : heap) (v : value) (names : list string) : Prop :=
  match names with
  | [] => True
  | n :: r => exists i o c, v = VRef i /\ nth_error h i = Some o /\ ordinary o /\
                            own_field o n = Some c /\ field_path h c r
  end.

(** A name with no dot in it. *)
Definition dotless (s : string) : Prop := forall a b, s <> (a ++ "." ++ b)%string.

(** Following a path of names. *)
Fixpoint walk (h : heap) (v : value) (names : list string) : option value :=
  match names, v with
  | [], _ => Some v
  | n :: r, VRef i => match nth_error h i with
                      | Some o => match part o (SKey n) with Some c => walk h c r | None => None end
                      | None => None
                      end
  | _ :: _, VAtom _ => None
  end.
