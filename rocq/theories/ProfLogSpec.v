(* What is promised of the profiling log. *)

From Coq Require Import List Arith Bool.
From Verif Require Import ProfLogModel.
Import ListNotations.

(** What one finds on disk. *)
Definition on_disk (s : st) : list line := match path s with Some f => nth f (files s) [] | None => [] end.

Definition samples (c : list line) : list (nat * nat) := flat_map (fun x => match x with Sample p k => [(p, k)] | _ => [] end) c.
Definition headers (c : list line) : nat := length (filter (fun x => match x with Head _ => true | _ => false end) c).

(** What was logged, and in which versions processes were started. *)
Definition logged (l : list event) : list (nat * nat) := flat_map (fun e => match e with Log p k => [(p, k)] | _ => [] end) l.
Definition all_of_version (v : nat) (l : list event) : Prop := forall w d, In (Launch w d) l -> w = v.

(** The file found was written by version [v]. *)
Definition fits (v : nat) (c : list line) : Prop := c = [] \/ exists r, c = Head v :: r.
Definition old_fits (v : nat) (old : option (list line)) : Prop := match old with Some c => fits v c | None => True end.
Definition old_lines (old : option (list line)) : list line := match old with Some c => c | None => [] end.

(** Every process has finished importing before the next one is started. *)
Definition one_at_a_time (old : option (list line)) (l : list event) : Prop :=
  forall l1 v d l2 s, l = l1 ++ Launch v d :: l2 -> run (init old) l1 = Some s ->
  forall x, In x (procs s) -> exists f, at_ x = Running f.

Definition nobody_crashed (s : st) : Prop := forall x, In x (procs s) -> at_ x <> Crashed.
