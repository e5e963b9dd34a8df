(* What is promised of the requests to a process and of the settings its units get. *)

From Coq Require Import List Arith Bool.
From Verif Require Import IoLoopModel.
Import ListNotations.

(** What happened, read off the events: the requests, the field changes for unit [u], and what others published to it. *)
Definition requests (l : list event) : list nat :=
  flat_map (fun e => match e with Request (Ask _ r) => [r] | Request (Quick r) => [r] | _ => [] end) l.
Definition changes (u : nat) (l : list event) : list nat :=
  flat_map (fun e => match e with Request (Ask v r) => if v =? u then [r] else [] | _ => [] end) l.
Definition others (u : nat) (l : list event) : list nat :=
  flat_map (fun e => match e with Outside v k => if v =? u then [k] else [] | _ => [] end) l.

(** The numbers of the messages that unit [u] was given: by field changes, by others. *)
Definition got (u : nat) (c : bool) (l : list message) : list nat :=
  map no (filter (fun m => (unit_ m =? u) && eqb (ctl m) c) l).

(** What the process and the server do by themselves. *)
Definition own (e : event) : bool := match e with Request _ | Outside _ _ | Close => false | _ => true end.
Definition is_expire (e : event) : bool := match e with Expire _ => true | _ => false end.
Definition is_request (e : event) : bool := match e with Request _ => true | _ => false end.
Definition is_outside (e : event) : bool := match e with Outside _ _ => true | _ => false end.
Definition is_fail (e : event) : bool := match e with Fail _ => true | _ => false end.
Definition how_many (f : event -> bool) (l : list event) : nat := length (filter f l).

(** Nothing can happen by itself; nothing can but time-outs. *)
Definition at_rest (verdict : message -> bool) (n : nat) (s : st) : Prop :=
  forall e, own e = true -> step verdict n s e = None.
Definition waits_for_timeout (verdict : message -> bool) (n : nat) (s : st) : Prop :=
  forall e, own e = true -> is_expire e = false -> step verdict n s e = None.

Definition prefix {A} (a b : list A) : Prop := exists c, b = a ++ c.

(** All is done: every request is answered and every unit has got all its messages, in order. *)
Definition all_done (l : list event) (s : st) : Prop :=
  replies s = requests l /\
  forall u, got u true (given s) = changes u l /\ got u false (given s) = others u l.

(** Unit [u] is done with this many of the messages made by field changes. *)
Definition finished (u : nat) (s : st) : nat := length (got u true (given s)) - length (got u true (working s)).

(** Nobody asks for more than [n] field changes of a unit ahead of the unit. *)
Definition modest (verdict : message -> bool) (n : nat) (l : list event) : Prop :=
  forall l1 l2 s u, l = l1 ++ l2 -> run verdict n init l1 = Some s -> length (changes u l1) <= n + finished u s.

(** Time-outs happen when nothing else can. *)
Definition patient (verdict : message -> bool) (n : nat) (l : list event) : Prop :=
  forall l1 u l2 s, l = l1 ++ Expire u :: l2 -> run verdict n init l1 = Some s -> waits_for_timeout verdict n s.

(** A list from which some entries were dropped. *)
Inductive thinned {A} : list A -> list A -> Prop :=
| thin_nil : thinned [] []
| thin_drop x a b : thinned a b -> thinned a (x :: b)
| thin_keep x a b : thinned a b -> thinned (x :: a) (x :: b).

(** The answers to reports that the process has not read. *)
Definition unread_answers (s : st) : list bool := flat_map (fun i => match i with Ack b => [b] | Req _ => [] end) (down s).
