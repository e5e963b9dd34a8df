(** What C102 is about. *)
From Coq Require Import String Ascii.
From Coq Require Import List Arith NArith Bool.
From Verif Require Import CodecModel CmdModel PerfModel HotModel EnvModel.
Import ListNotations.
Local Open Scope nat_scope.

(** All the names in two records, each once, in some order. *)
Definition names_of {V : Type} (a b : @info V) (keys : list pystr) : Prop := NoDup keys /\ forall k, In k keys <-> In k (map fst a) \/ In k (map fst b).

(** [k] has the value [v]; no name is there twice. *)
Definition has {V : Type} (i : @info V) (k : pystr) (v : option V) : Prop :=
  match v with Some x => In (k, x) i | None => ~ In k (map fst i) end.

(** Cut at the ends of lines. *)
Fixpoint lines_of (s : pystr) : list pystr :=
  match s with
  | [] => [[]]
  | c :: r => if N.eqb c 10 then [] :: lines_of r else match lines_of r with [] => [[c]] | l :: ls => (c :: l) :: ls end
  end.

(** In the order of names: after a common beginning nothing, or a smaller character. *)
Definition precedes (s t : pystr) : Prop :=
  exists p x y r u, s = p ++ r /\ t = p ++ u /\ u = y :: tl u /\ (r = [] \/ (r = x :: tl r /\ (x < y)%N)).
