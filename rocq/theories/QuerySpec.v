(* What the queries of a graph context mean. *)

From Coq Require Import String List.
From Verif Require Import Dict DagModel EventLogModel ServerModel ServerSpec.
Import ListNotations.

(** A live session has registered component [a] with dynamic settings on topic [t]. *)
Definition exposes (dyn : comp -> option topic) (h : hist) (a : addr) (t : topic) : Prop :=
  exists sid md c, registered h sid md /\ get a md = Some c /\ dyn c = Some t.

(** Since the history [h0], the server was asked to route request [q] to the owner of
    [u], in state [s1]. *)
Definition asked_since (sl tl : nat) (h0 h : hist) (q : nat) (u : addr) (s1 : server) : Prop :=
  exists ok mid after, h = h0 ++ mid ++ (LRoute u ok, RpId q) :: after /\ run sl tl s1 (h0 ++ mid).

(** No process registered units, changed its units or went away since [h0]. *)
Definition processes_unchanged (h0 h : hist) : Prop :=
  exists mid, h = h0 ++ mid /\
    forall l r, In (l, r) mid ->
      match l with LProcRegister _ _ | LProcOwn _ _ _ | LProcGone _ => False | _ => True end.
