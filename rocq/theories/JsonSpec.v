(* What texts and values of the log are meant: strings that are Unicode text, reprs of floats. *)

From Coq Require Import String List NArith ZArith Bool.
From Verif Require Import CodecModel JsonModel.
Import ListNotations.

Definition digits_only (s : pystr) : Prop := s <> [] /\ forall c, In c s -> (48 <= c <= 57)%N.

(** A natural number in decimal, without leading zeros. *)
Definition decimal (s : pystr) : Prop := s = u "0" \/ digits_only s /\ hd 48%N s <> 48%N.

(** float.__repr__ of a finite float, like -1.5, 1e-05 or 2.5e+100 *)
Definition finite_repr (r : pystr) : Prop :=
  exists sign i f e,
    r = sign ++ i ++ f ++ e /\
    (sign = [] \/ sign = u "-") /\ decimal i /\
    (f = [] \/ exists d, f = u "." ++ d /\ digits_only d) /\
    (e = [] \/ exists g d, e = u "e" ++ g ++ d /\ (g = [] \/ g = u "+" \/ g = u "-") /\ digits_only d) /\
    f ++ e <> [].

Definition good_float (f : pyfloat) : Prop := match f with Finite r => finite_repr r | _ => True end.

(** Code points, and no two that are the halves of a surrogate pair next to each other. *)
Fixpoint no_split_pair (s : pystr) : Prop :=
  match s with
  | c :: ((d :: _) as r) => ~ ((55296 <= c <= 56319)%N /\ (56320 <= d <= 57343)%N) /\ no_split_pair r
  | _ => True
  end.
Definition good_string (s : pystr) : Prop := (forall c, In c s -> (c <= 1114111)%N) /\ no_split_pair s.

(** A JSON value that can be written. *)
Fixpoint good_json (j : json) : Prop :=
  match j with
  | JNull | JBool _ | JInt _ => True
  | JFloat f => good_float f
  | JStr s => good_string s
  | JArr l => (fix all l := match l with [] => True | x :: r => good_json x /\ all r end) l
  | JObj l => (fix all l := match l with [] => True | p :: r => good_string (fst p) /\ good_json (snd p) /\ all r end) l
  end.
