(* Plain data: what JSON can hold. *)

From Coq Require Import String List.
From Verif Require Import Dict SanitizeModel.
Import ListNotations.

(** None, booleans, numbers, strings, lists of plain data and dicts from distinct
    strings to plain data. *)
Inductive plain : pv -> Prop :=
| plain_none : plain PNone
| plain_bool b : plain (PBool b)
| plain_num n : plain (PNum n)
| plain_str s : plain (PStr s)
| plain_list l : Forall plain l -> plain (PSeq KList l)
| plain_dict d : NoDup (map fst d) -> Forall (fun p => plain (snd p)) d -> plain (PDict true (map (fun p => (PStr (fst p), snd p)) d)).

Definition is_dict (v : pv) : Prop := exists l, v = PDict true l.
