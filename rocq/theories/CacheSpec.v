(** What a lookup must return, straight from the history (most recent operation first). *)
From Coq Require Import List Arith Bool.
From Verif Require Import CacheModel.
Import ListNotations.

Section Spec.
Context {Obj : Type}.

(** The most recent operation touching message [m] or its slot decides. *)
Fixpoint expected (n : nat) (h : list (cache_op Obj)) (m : nat) : option Obj :=
  match h with
  | [] => None
  | Put k o _ :: h' => if Nat.eqb k m then Some o
                       else if Nat.eqb (k mod n) (m mod n) then None  (* evicted *)
                       else expected n h' m
  | Release k :: h' => if Nat.eqb k m then None else expected n h' m
  | Clear :: _ => None
  end.

(** Memoryviews handed to the cache. *)
Definition handed (ops : list (cache_op Obj)) : list nat :=
  flat_map (fun op => match op with Put _ _ (Some t) => [t] | _ => [] end) ops.

(** Memoryviews the cache still owns. *)
Definition owned (c : cache Obj) : list nat :=
  flat_map (fun s => match s with Some e => match e_mem e with Some t => [t] | None => [] end | None => [] end) (slots c).
End Spec.
