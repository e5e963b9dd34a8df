(** What C101 is about. *)
From Coq Require Import String Ascii.
From Coq Require Import List Arith NArith ZArith QArith Bool Sorted.
From Verif Require Import CodecModel AddressModel CmdModel PerfModel PerfSpec HotModel.
Import ListNotations.
Local Open Scope nat_scope.

(** The cases asked for. *)
Definition asked (apis transports : list pystr) (sizes : list Z) (num_buffers : Z) (c : case) : Prop :=
  In (api c) apis /\ In (transport c) transports /\ In (payload c) sizes /\ buffers c = num_buffers /\
  In (api c) [text "async"; text "sync"] /\ In (transport c) [text "local"; text "shm"; text "tcp"].

(** In the order of their names. *)
Definition before (c d : case) : Prop :=
  case_id c = case_id d \/ exists p x y r s, case_id c = p ++ r /\ case_id d = p ++ s /\ s = y :: tl s /\ (r = [] \/ (r = x :: tl r /\ (x < y)%N)).

(** The samples of a case. *)
Definition samples_of (c : case) (ev : list event) : nat :=
  length (filter (fun e => match e with Sampled d _ => str_eqb (case_id c) (case_id d) | _ => false end) ev).

(** The level of the log after some events. *)
Fixpoint level_after (n : Z) (ev : list event) : Z :=
  match ev with [] => n | Level m :: r => level_after m r | _ :: r => level_after n r end.

(** [n] messages, each sent and received before the next. *)
Definition one_by_one (ops : list op) (n : nat) : Prop := ops = concat (repeat [Send; Receive] n).
