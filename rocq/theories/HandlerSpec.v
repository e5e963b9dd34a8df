(* Specification for C66: what is observed of the handlers of a stream. *)

From Coq Require Import List.
From Verif Require Import Dict HandlerModel.
Import ListNotations.

Section Spec.
Context {H M S O : Type} `{Dec H}.
Notation hap := (happening H M S O).

(** The messages taken from the subscriber, and those a handler was called with. *)
Definition received (t : list hap) : list M :=
  flat_map (fun a => match a with Received m => [m] | _ => [] end) t.
Definition given (h : H) (t : list hap) : list M :=
  flat_map (fun a => match a with Given h' m => if eqd h h' then [m] else [] | _ => [] end) t.
Definition yielded (t : list hap) : list (S * O) :=
  flat_map (fun a => match a with Yielded _ s o => [(s, o)] | _ => [] end) t.

(** The handler has raised Complete or NormalTermination, when given [m]. *)
Definition finished_at (h : H) (m : M) (t : list hap) : Prop :=
  In (Ended h m RaisesComplete) t \/ In (Ended h m RaisesNormalTermination) t.
Definition finished (h : H) (t : list hap) : Prop := exists m, finished_at h m t.

Definition no_reception (t : list hap) : Prop := received t = [].
End Spec.

