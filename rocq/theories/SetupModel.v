(** Giving a unit its settings and its state.
    Models
      component.py:123-151   Component.__init__ (settings),
      component.py:153-167   _instantiate_state, _check_state,
      component.py:169-180   apply_settings,
      unit.py:93-107         Unit.setup,
      state.py:34-35, settings.py:45-46   state and settings classes are dataclasses.

    Simplifications.  Objects are numbers; an object made by a default factory is a number that was
    not in use.  A settings class is what calling it does.  [initialize] is the user's: it may set
    and delete attributes of STATE, and may raise; it does not bind SETTINGS or STATE anew and does
    not call [setup].  Class attributes of a state are its defaults (dataclass deletes the others). *)
From Coq Require Import String List Bool Arith.
From Verif Require Import Dict.
Import ListNotations.

(** Calling a class. *)
Inductive made := Made (obj : nat) | MadeTypeError | MadeError (e : nat).

(** A field of a state class. *)
Inductive default := NoDefault | Default (obj : nat) | Factory.

(** What a unit class knows: its settings type, whether an object is an instance of it, and the
    fields of its state type, in order. *)
Record uclass := UClass {
  uc_settings : list nat -> list (string * nat) -> made;
  uc_instance : nat -> bool;
  uc_fields : list (string * default) }.

(** A unit: SETTINGS, _settings_applied, and STATE with its own attributes. *)
Record uinst := UInst { ui_settings : option nat; ui_applied : bool; ui_state : option (list (string * nat)) }.

Definition blank : uinst := UInst None false None.

(** component.py:179-180 *)
Definition apply_settings (u : uinst) (s : nat) : uinst := UInst (Some s) true (ui_state u).

(** component.py:135-151: [None]: the constructor raises. *)
Definition construct (c : uclass) (args : list nat) (kwargs : list (string * nat)) (settings : option nat) : option uinst :=
  match settings with
  | Some s => Some (apply_settings blank s)
  | None =>
      match args with
      | a :: _ => if uc_instance c a then Some (apply_settings blank a)
                  else match uc_settings c args kwargs with
                       | Made s => Some (apply_settings blank s)
                       | _ => None
                       end
      | [] =>
          match kwargs with
          | _ :: _ => match uc_settings c args kwargs with
                      | Made s => Some (apply_settings blank s)
                      | _ => None
                      end
          | [] => match uc_settings c [] [] with
                  | Made s => Some (apply_settings blank s)
                  | MadeTypeError => Some blank
                  | MadeError _ => None
                  end
          end
      end
  end.

(** component.py:153-159: the attributes set, from the first number that is free; and the next free
    one. *)
Fixpoint factories (fields : list (string * default)) (free : nat) : list (string * nat) * nat :=
  match fields with
  | [] => ([], free)
  | (n, Factory) :: r => let (d, k) := factories r (S free) in ((n, free) :: d, k)
  | _ :: r => factories r free
  end.

(** Python: [getattr(STATE, n)], own attributes before those of the class. *)
Definition state_attr (c : uclass) (attrs : list (string * nat)) (n : string) : option nat :=
  match get n attrs with
  | Some v => Some v
  | None => match get n (uc_fields c) with Some (Default v) => Some v | _ => None end
  end.

(** component.py:161-167 *)
Definition check_state (c : uclass) (attrs : list (string * nat)) : bool :=
  forallb (fun f => match state_attr c attrs (fst f) with Some _ => true | None => false end) (uc_fields c).

(** How [setup] ends. *)
Inductive setup_end := SetUp | StateThere | NoSettings | InitializeFailed (e : nat) | FieldMissing.

(** [initialize]: from the settings and the attributes of the state, what it leaves, and whether it
    raised. *)
Notation initialize := (option nat -> list (string * nat) -> list (string * nat) * option nat).

(** unit.py:93-107.  The third component: what initialize was called with, if it was. *)
Definition setup (c : uclass) (init : initialize) (u : uinst) (free : nat) :
  uinst * nat * setup_end * option (option nat * list (string * nat)) :=
  match ui_state u with
  | Some _ => (u, free, StateThere, None)
  | None =>
      let (attrs, free) := factories (uc_fields c) free in
      let u := UInst (ui_settings u) (ui_applied u) (Some attrs) in
      if negb (ui_applied u) then (u, free, NoSettings, None)
      else
        let (attrs', err) := init (ui_settings u) attrs in
        let u' := UInst (ui_settings u) true (Some attrs') in
        match err with
        | Some e => (u', free, InitializeFailed e, Some (ui_settings u, attrs))
        | None => (u', free, if check_state c attrs' then SetUp else FieldMissing, Some (ui_settings u, attrs))
        end
  end.

(** A history of units in one process. *)
Inductive op :=
| New (c : uclass) (args : list nat) (kwargs : list (string * nat)) (settings : option nat)
| Apply (i : nat) (s : nat)
| SetupUnit (i : nat) (init : initialize).

Record proc := Proc { p_units : list (uclass * uinst); p_free : nat;
  p_calls : list (nat * (option nat * list (string * nat)));     (* calls of initialize: unit, settings, state *)
  p_ends : list (nat * setup_end) }.                             (* set-ups: unit, how it ended *)

Fixpoint set_nth {A} (l : list A) (i : nat) (x : A) : list A :=
  match l, i with
  | [], _ => []
  | _ :: r, 0 => x :: r
  | y :: r, S i => y :: set_nth r i x
  end.

Definition step (p : proc) (o : op) : proc :=
  match o with
  | New c args kwargs settings =>
      match construct c args kwargs settings with
      | Some u => Proc (p_units p ++ [(c, u)]) (p_free p) (p_calls p) (p_ends p)
      | None => p
      end
  | Apply i s =>
      match nth_error (p_units p) i with
      | Some (c, u) => Proc (set_nth (p_units p) i (c, apply_settings u s)) (p_free p) (p_calls p) (p_ends p)
      | None => p
      end
  | SetupUnit i init =>
      match nth_error (p_units p) i with
      | Some (c, u) =>
          let '(u', free, e, call) := setup c init u (p_free p) in
          Proc (set_nth (p_units p) i (c, u')) free
            (p_calls p ++ match call with Some x => [(i, x)] | None => [] end) (p_ends p ++ [(i, e)])
      | None => p
      end
  end.

(** [free]: the objects the program has made so far have smaller numbers. *)
Definition start (free : nat) : proc := Proc [] free [] [].
Definition run (free : nat) (l : list op) : proc := fold_left step l (start free).
