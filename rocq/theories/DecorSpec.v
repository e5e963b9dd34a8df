(* What is promised of the decorators and of DebugLog. *)

From Coq Require Import ZArith String List Bool Arith.
From Verif Require Import DecorModel.
Import ListNotations.
Open Scope string_scope.

(** The axis of that name and the length of its dimension. *)
Inductive has_axis (o : obj) (n : string) (a : axis) (len : nat) : Prop :=
| has_axis_intro axes dims shape k :
    o = Arr axes dims shape -> get_ax n axes = Some a -> nth_error dims k = Some n -> (forall j, j < k -> nth_error dims j <> Some n) ->
    nth_error shape k = Some len -> has_axis o n a len.

(** There is no entry of that name among the axes. *)
Definition lacks (o : obj) (n : string) : Prop := match o with Arr axes _ _ => get_ax n axes = None | Plain _ => True end.

(** The first or the last value of an axis. *)
Definition end_of (oldest : bool) (a : axis) (len : nat) : option Z := value a (if oldest then 0 else len - 1).

(** An AxisArray as the library makes them: the time axes are dimensions and coordinates are as long as the data. *)
Definition well_made (o : obj) : Prop :=
  match o with
  | Plain _ => True
  | Arr axes dims shape =>
      length dims = length shape /\
      forall n a, (n = "win" \/ n = "time") -> get_ax n axes = Some a ->
      exists k len, index_of n dims = Some k /\ nth_error shape k = Some len /\ match a with Coords d => length d = len | Linear _ _ => True end
  end.

Definition yields (l : list act) : list obj := flat_map (fun a => match a with Yield _ o => [o] | Do _ => [] end) l.
