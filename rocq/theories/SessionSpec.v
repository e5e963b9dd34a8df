(** What C75 is about: histories of a session, and what an answer and its receipt have to do with each other. *)
From Coq Require Import List Strings.Byte NArith Bool.
From Verif Require Import CodecModel StreamModel SessionModel.
Import ListNotations.

Section Spec.
Variable V : Type.
Variable loads : bytes -> option V.
Variable int_ok float_ok : pystr -> bool.

(** After some history of calls, cancellations, arrivals, answers and failures *)
Definition reachable (s : session V) : Prop :=
  exists es, steps V loads int_ok float_ok (start V) es = Some s.

(** How the [j]-th call stands, and what was answered to the [j]-th request the server executed. *)
Definition stands (s : session V) (j : nat) (o : outcome V) : Prop := nth_error (outs V s) j = Some o.
Definition was_called (s : session V) (j : nat) (c : call) : Prop := nth_error (calls V s) j = Some c.
Definition was_answered (s : session V) (j : nat) (c : call) (a : answer) : Prop := nth_error (executed V s) j = Some (c, a).

(** The value the caller gets for an answer: the very byte, or what pickle.loads makes of the payload. *)
Definition receives (a : answer) (r : response V) : Prop :=
  match a, r with
  | AByte c, RByte _ b => b = [command_byte c]
  | APickled p, RValue _ v => loads p = Some v
  | _, _ => False
  end.

(** The connection ended before the answer. *)
Definition nothing : response V := RByte V [].

(** What happens without anybody calling a method and without the server being stopped. *)
Definition by_itself (e : event) : bool :=
  match e with Call _ | Cancel _ | Close | ServerCloses => false | _ => true end.
End Spec.
