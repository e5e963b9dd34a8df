(* Model of the structured form of settings values:
     settingsmeta.py:17-31  _sanitize,
     settingsmeta.py:34-75  settings_structured_value,
     settingsmeta.py:78-82  settings_repr_value,
   with the parts of the standard library they call: dataclasses.asdict, str, repr.

   Simplifications: values are finite trees (no cycles); [str], [repr] of an object
   are given with the object or, for containers, by functions the theorems
   quantify over; numbers and floats are known by an identity; the elements of a set come in
   some order; a dict has no two equal keys, but keys with equal [str] may
   occur. *)

From Coq Require Import String List Arith Bool.
From Verif Require Import Dict.
Import ListNotations.

Inductive seq_kind := KList | KTuple | KSet | KFrozenset.

(** A Python value, by the tests the code makes on it.
    - [PEnum]: an enum.Enum member that is not an int, float or str (those are [PNum]/[PStr]);
    - [PDict]: a Mapping; [isd] tells a dict from other Mappings;
    - [PData]: a dataclass instance with its repr;
    - [PObj]: any other object: its repr, whether deepcopy works on it, and what it offers: the result of
      model_dump(), dict() and param.values(), if it has them, they do not raise
      and they return a dict (its items). *)
Inductive pv :=
| PNone
| PBool (b : bool)
| PNum (n : nat)
| PStr (s : string)
| PEnum (value : pv)
| PDict (isd : bool) (items : list (pv * pv))
| PSeq (k : seq_kind) (l : list pv)
| PData (repr : string) (fields : list (string * pv))
| PObj (repr : string) (copyable : bool) (model_dump dict_ param : option (list (pv * pv))).

Section Sanitize.

(** Python's [str] of a key; [str(s)] of a string is the string itself. *)
Context (str_of : pv -> string).
Definition str_key (v : pv) : string := match v with PStr s => s | _ => str_of v end.

(** {k: v, ...}: a later entry with an equal key replaces the value of the earlier one. *)
Definition build_dict (l : list (string * pv)) : list (pv * pv) :=
  map (fun p => (PStr (fst p), snd p)) (fold_left (fun d p => put (fst p) (snd p) d) l []).

(** copy.deepcopy succeeds (and gives an equal value). *)
Fixpoint can_copy (v : pv) : bool :=
  match v with
  | PNone | PBool _ | PNum _ | PStr _ | PEnum _ => true
  | PDict _ l => (fix go l := match l with [] => true | (k, x) :: r => can_copy k && can_copy x && go r end) l
  | PSeq _ l => (fix go l := match l with [] => true | x :: r => can_copy x && go r end) l
  | PData _ fs => (fix go l := match l with [] => true | (_, x) :: r => can_copy x && go r end) fs
  | PObj _ c _ _ _ => c
  end.

(** A dict, list or set cannot be a key of a dict, nor a tuple holding one. *)
Fixpoint hashable (v : pv) : bool :=
  match v with
  | PDict _ _ | PSeq KList _ | PSeq KSet _ => false
  | PSeq KTuple l => (fix go l := match l with [] => true | x :: r => hashable x && go r end) l
  | _ => true
  end.

(** dataclasses.asdict (its inner function); [None] if it raises. *)
Fixpoint asdict (v : pv) : option pv :=
  match v with
  | PData _ fs =>
      option_map (PDict true)
        ((fix go (l : list (string * pv)) : option (list (pv * pv)) :=
            match l with
            | [] => Some []
            | (n, x) :: r =>
                match asdict x, go r with
                | Some x', Some r' => Some ((PStr n, x') :: r')
                | _, _ => None
                end
            end) fs)
  | PSeq KList l | PSeq KTuple l =>
      option_map (PSeq match v with PSeq k _ => k | _ => KList end)
        ((fix go (l : list pv) : option (list pv) :=
            match l with
            | [] => Some []
            | x :: r => match asdict x, go r with Some x', Some r' => Some (x' :: r') | _, _ => None end
            end) l)
  | PDict true l =>
      option_map (PDict true)
        ((fix go (l : list (pv * pv)) : option (list (pv * pv)) :=
            match l with
            | [] => Some []
            | (k, x) :: r =>
                match asdict k, asdict x, go r with
                | Some k', Some x', Some r' => if hashable k' then Some ((k', x') :: r') else None
                | _, _, _ => None
                end
            end) l)
  | _ => if can_copy v then Some v else None
  end.

(** The height of a value, with room for a dataclass to become a dict. *)
Fixpoint height (v : pv) : nat :=
  match v with
  | PNone | PBool _ | PNum _ | PStr _ => 0
  | PEnum x => S (height x)
  | PDict _ l => S ((fix go l := match l with [] => 0 | (k, x) :: r => Nat.max (height x) (go r) end) l)
  | PSeq _ l => S ((fix go l := match l with [] => 0 | x :: r => Nat.max (height x) (go r) end) l)
  | PData _ fs => S (S ((fix go l := match l with [] => 0 | (_, x) :: r => Nat.max (height x) (go r) end) fs))
  | PObj _ _ _ _ _ => 0
  end.

(** settingsmeta.py:17-31 — _sanitize; [n] bounds the depth of the recursion
    ([height] is enough). *)
Fixpoint sanitize_upto (n : nat) (v : pv) : pv :=
  match v with
  | PNone | PBool _ | PNum _ | PStr _ => v
  | PObj repr _ _ _ _ => PStr repr
  | PEnum x => match n with S n => sanitize_upto n x | 0 => v end
  | PDict _ l =>
      match n with
      | S n => PDict true (build_dict (map (fun p => (str_key (fst p), sanitize_upto n (snd p))) l))
      | 0 => v
      end
  | PSeq _ l => match n with S n => PSeq KList (map (sanitize_upto n) l) | 0 => v end
  | PData repr fs =>
      match n with
      | S n => match asdict v with Some d => sanitize_upto n d | None => PStr repr end
      | 0 => v
      end
  end.

Definition sanitize (v : pv) : pv := sanitize_upto (height v) v.

(** settingsmeta.py:34-75 — settings_structured_value. *)
Definition settings_structured_value (v : pv) : option pv :=
  match v with
  | PNone => None
  | PData _ _ => match asdict v with Some d => Some (sanitize d) | None => None end
  | PObj _ _ md dc pm =>
      match md with
      | Some d => Some (sanitize (PDict true d))
      | None => match dc with
                | Some d => Some (sanitize (PDict true d))
                | None => match pm with
                          | Some d => Some (sanitize (PDict true d))
                          | None => None
                          end
                end
      end
  | PDict _ l => Some (sanitize (PDict true l))
  | _ => None
  end.

(** settingsmeta.py:78-82 — settings_repr_value; [repr_of] is Python's [repr]. *)
Definition settings_repr_value (repr_of : pv -> string) (v : pv) : pv :=
  match settings_structured_value v with
  | Some d => d
  | None => PStr (repr_of v)
  end.

End Sanitize.
