(** What is said about the machines of two benchmark runs: src/ezmsg/util/perf/envinfo.py.

    Simplifications: values are compared by equality and printed by an arbitrary function; the order in which a set of names is
    iterated is an arbitrary list of the names; that both records have the same fields is not used. *)
From Coq Require Import String Ascii.
From Coq Require Import List Arith NArith Bool.
From Verif Require Import CodecModel CmdModel PerfModel HotModel.
Import ListNotations.
Local Open Scope nat_scope.

Section Env.
Context {V : Type} (eqv : V -> V -> bool) (shown : option V -> pystr).

(** dataclasses.asdict *)
Definition info := list (pystr * V).
(** dict.get *)
Fixpoint get_field (i : info) (k : pystr) : option V :=
  match i with [] => None | (n, v) :: r => if str_eqb k n then Some v else get_field r k end.

Definition same_value (x y : option V) : bool :=
  match x, y with None, None => true | Some x, Some y => eqv x y | _, _ => false end.

(** envinfo.py 83-90 — diff; [keys] is how set(a) | set(b) is iterated. *)
Definition diff (keys : list pystr) (a b : info) : list (pystr * (option V * option V)) :=
  map (fun k => (k, (get_field a k, get_field b k))) (filter (fun k => negb (same_value (get_field a k) (get_field b k))) keys).

(** str.ljust, str.join *)
Definition ljust (s : pystr) (w : nat) : pystr := s ++ repeat 32%N (w - length s).
Fixpoint join_lines (l : list pystr) : pystr :=
  match l with [] => [] | [x] => x | x :: r => x ++ 10%N :: join_lines r end.

Definition widest (l : list pystr) : nat := fold_right (fun k w => Nat.max (length k) w) 0 l.
Definition line_of (w : nat) (e : pystr * (option V * option V)) : pystr :=
  text "  " ++ ljust (fst e) w ++ text " : " ++ shown (fst (snd e)) ++ text "  !=  " ++ shown (snd (snd e)).

(** envinfo.py 93-102 — format_env_diff *)
Definition format_diff (d : list (pystr * (option V * option V))) : pystr :=
  match d with
  | [] => text "No differences."
  | _ => join_lines (text "Differences in TestEnvironmentInfo:" ::
           map (line_of (widest (map fst d))) (sort (fun x y => str_leb (fst x) (fst y)) d))
  end.

(** envinfo.py 105-106 — diff_envs *)
Definition diff_envs (keys : list pystr) (a b : info) : pystr := format_diff (diff keys a b).
End Env.
