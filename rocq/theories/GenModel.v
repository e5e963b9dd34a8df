(* Model of units made of generators:
     util/generator.py:25-100       consumer, compose, Gen,
     util/messages/key.py:11-145    set_key, SetKey, FilterOnKey,
     util/gen_to_unit.py:27-191     gen_to_unit.

   A generator function is given by what its code does between yields; values sent and yielded may
   be Python's None, which is None here.  Unmodelled: generators that are closed or thrown into from
   outside, and loops that never yield. *)

From Coq Require Import List NArith ZArith Bool.
From Verif Require Import Dict CodecModel ArrayModel.
Import ListNotations.

(** ** Generators *)

Section Gen.
Context {S X Y : Type}.          (* the generator's local state, what is sent, what is yielded *)

(** What running the code leads to. *)
Inductive outcome :=
| Yields (y : option Y) (s : S)
| Returns
| Throws.

Record body := Body { begin : outcome; resume : S -> option X -> outcome }.

Inductive gen := Unstarted | Suspended (s : S) | Finished.

Inductive reply := Value (y : option Y) | StopIteration | Error.

Definition after_outcome (o : outcome) : reply * gen :=
  match o with
  | Yields y s => (Value y, Suspended s)
  | Returns => (StopIteration, Finished)
  | Throws => (Error, Finished)
  end.

(** generator.send; next(gen) is send(None).  A generator that has not started refuses any other
    value with a TypeError, and stays as it is. *)
Definition send (b : body) (g : gen) (x : option X) : reply * gen :=
  match g with
  | Unstarted => match x with None => after_outcome (begin b) | Some _ => (Error, Unstarted) end
  | Suspended s => after_outcome (resume b s x)
  | Finished => (StopIteration, Finished)
  end.

(** generator.py:25-48: None is the exception of next. *)
Definition consumer (b : body) : option gen :=
  match send b Unstarted None with
  | (Value _, g) => Some g
  | _ => None
  end.

(** ** Gen *)

(** generator.py:92-100, key.py:100-107: what is published, and the generator afterwards.  All
    exceptions are logged and nothing else. *)
Definition on_message (b : body) (g : gen) (x : option X) : list Y * gen :=
  match send b g x with
  | (Value (Some y), g) => ([y], g)
  | (_, g) => ([], g)
  end.

Fixpoint on_messages (b : body) (g : gen) (xs : list (option X)) : list Y * gen :=
  match xs with
  | [] => ([], g)
  | x :: xs =>
      let (ys, g) := on_message b g x in
      let (zs, g) := on_messages b g xs in (ys ++ zs, g)
  end.
End Gen.
Arguments outcome : clear implicits.
Arguments body : clear implicits.
Arguments gen : clear implicits.
Arguments reply : clear implicits.
Arguments Unstarted {S}.
Arguments Finished {S}.

(** ** compose *)

Section Compose.
Context {S V : Type}.            (* the states of the generators are put in one type *)
Notation stage := (body S V V * gen S)%type.

(** generator.py:66: reduce of send over the generators; an exception leaves the later ones alone. *)
Fixpoint pipe (gs : list stage) (x : option V) : reply V * list stage :=
  match gs with
  | [] => (Value x, [])
  | (b, g) :: gs =>
      match send b g x with
      | (Value y, g') => let (r, gs') := pipe gs y in (r, (b, g') :: gs')
      | (r, g') => (r, (b, g') :: gs)
      end
  end.

(** Calling the composition again and again; None if a call raises. *)
Fixpoint pipe_all (gs : list stage) (xs : list (option V)) : option (list (option V)) :=
  match xs with
  | [] => Some []
  | x :: xs =>
      match pipe gs x with
      | (Value y, gs') => option_map (cons y) (pipe_all gs' xs)
      | _ => None
      end
  end.
End Compose.

(** ** SetKey and FilterOnKey *)

Section Key.
Context {A D U V T K O : Type} `{Dec D} `{Dec K}.
Notation aa := (@aa A D U V T K).

(** A message that arrives: an AxisArray, or something else. *)
Inductive message := IsArray (a : aa) | Else (o : O).

(** replace(axis_arr_in, key=key), util.py:35-37; something else has no such field (Simplified: a
    class of its own with a key would be taken). *)
Definition with_key (k : K) (m : message) : option message :=
  match m with
  | IsArray a => option_map IsArray (make (data a) (dims a) (axes a) (attrs a) k)
  | Else _ => None
  end.

Notation emit o := (match o with Some y => Yields (Some y) tt | None => Throws end).

(** key.py:11-28: the first yield is of an array of no use. *)
Definition set_key (k : K) : body unit message message :=
  Body (Yields None tt)
       (fun _ x => match x with Some m => emit (with_key k m) | None => Throws end).

(** key.py:44-107: a SetKey unit is its settings and its generator. *)
Record set_key_unit := SetKeyUnit { sk_key : K; sk_gen : body unit message message * gen unit }.

(** 59-73: a new generator for the settings *)
Definition sk_construct (k : K) : set_key_unit :=
  SetKeyUnit k (set_key k, match consumer (set_key k) with Some g => g | None => Finished end).

Inductive sk_event :=
| Message (m : message)          (* 88-107 *)
| NewKey (k : K).                (* 76-84 *)

Definition sk_step (u : set_key_unit) (e : sk_event) : list message * set_key_unit :=
  match e with
  | Message m =>
      let (ys, g) := on_message (fst (sk_gen u)) (snd (sk_gen u)) (Some m) in
      (ys, SetKeyUnit (sk_key u) (fst (sk_gen u), g))
  | NewKey k => ([], sk_construct k)
  end.

Fixpoint sk_run (u : set_key_unit) (es : list sk_event) : list message :=
  match es with
  | [] => []
  | e :: es => let (ys, u) := sk_step u e in ys ++ sk_run u es
  end.

(** key.py:130-145; None is the exception of a message without a key *)
Definition filter_on_key (k : K) (m : message) : option (list message) :=
  match m with
  | IsArray a => if eqd (key a) k then option_map (fun m => [m]) (with_key (key a) m) else Some []
  | Else _ => None
  end.
End Key.

(** ** gen_to_unit *)

(** Python values, as far as dataclasses.asdict tells them apart. *)
Inductive pyval :=
| PAtom (z : Z)                                   (* what copy.deepcopy copies *)
| PList (l : list pyval)
| PDict (l : list (pystr * pyval))
| PData (cls : nat) (l : list (pystr * pyval))    (* an instance of a dataclass *)
| PGen.                                           (* a generator *)

Fixpoint all_of {X} (l : list (option X)) : option (list X) :=
  match l with
  | [] => Some []
  | Some x :: r => option_map (cons x) (all_of r)
  | None :: _ => None
  end.

(** dataclasses._asdict_inner; None: copy.deepcopy of a generator is a TypeError. *)
Fixpoint as_dict (v : pyval) : option pyval :=
  match v with
  | PAtom z => Some (PAtom z)
  | PList l => option_map PList (all_of (map as_dict l))
  | PDict l | PData _ l => option_map PDict (all_of (map (fun p => option_map (pair (fst p)) (as_dict (snd p))) l))
  | PGen => None
  end.

(** asdict of an instance: a dict of its fields *)
Definition asdict (l : list (pystr * pyval)) : option (list (pystr * pyval)) :=
  all_of (map (fun p => option_map (pair (fst p)) (as_dict (snd p))) l).

Definition gen_name : pystr := [103; 101; 110]%N.     (* "gen" *)

Section GenToUnit.
Context {S Y : Type}.
Notation body := (body S (list (pystr * pyval)) Y).   (* a message is its attributes *)
Notation gen := (gen S).

(** Calling func: the generator, or an exception. *)
Variable func : list (pystr * pyval) -> option (body * gen).
Variable msg_to_state : list (pystr * pystr).
Variable differs : pyval -> pyval -> bool.            (* != *)

(** The unit's state: the fields but gen, and gen. *)
Record unit_state := UnitState { st_fields : list (pystr * pyval); st_gen : body * gen }.

(** 65-68 (for a function without a parameter named gen) *)
Definition initialize (settings : list (pystr * pyval)) : option unit_state :=
  match asdict settings with
  | None => None
  | Some kw => option_map (UnitState settings) (func kw)
  end.

(** asdict(self.STATE): gen is one of its fields. *)
Definition asdict_state (st : unit_state) : option (list (pystr * pyval)) :=
  asdict (st_fields st ++ [(gen_name, PGen)]).

(** 73-86: the state, and whether no exception was raised *)
Fixpoint check_fields (pairs : list (pystr * pystr)) (msg : list (pystr * pyval)) (st : unit_state) : unit_state * bool :=
  match pairs with
  | [] => (st, true)
  | (mf, sf) :: pairs =>
      match get mf msg, get sf (st_fields st) with
      | Some new, Some old =>
          if differs old new then
            let st := UnitState (put sf new (st_fields st)) (st_gen st) in
            match asdict_state st with
            | None => (st, false)
            | Some kw =>
                match func kw with
                | None => (st, false)
                | Some g => check_fields pairs msg (UnitState (st_fields st) g)
                end
            end
          else check_fields pairs msg st
      | _, _ => (st, false)
      end
  end.

(** 135-139: what is published, None standing for an exception *)
Definition handle (st : unit_state) (msg : list (pystr * pyval)) : option (option Y) * unit_state :=
  match check_fields msg_to_state msg st with
  | (st, false) => (None, st)
  | (st, true) =>
      match send (fst (st_gen st)) (snd (st_gen st)) (Some msg) with
      | (Value y, g) => (Some y, UnitState (st_fields st) (fst (st_gen st), g))
      | (_, g) => (None, UnitState (st_fields st) (fst (st_gen st), g))
      end
  end.

(** The subscriber's loop goes on after an exception (HandlerModel.v). *)
Fixpoint handle_all (st : unit_state) (msgs : list (list (pystr * pyval))) : list (option (option Y)) * unit_state :=
  match msgs with
  | [] => ([], st)
  | m :: ms => let (r, st) := handle st m in let (rs, st) := handle_all st ms in (r :: rs, st)
  end.
End GenToUnit.

(** 107-112: a unit that only publishes, for [n] rounds of its loop: the values published, and
    whether it goes on.  StopIteration becomes a RuntimeError. *)
Fixpoint source {S X Y} (b : body S X Y) (n : nat) (g : gen S) : list (option Y) * bool :=
  match n with
  | 0 => ([], true)
  | S n =>
      match send b g None with
      | (Value y, g) => let (ys, ok) := source b n g in (y :: ys, ok)
      | _ => ([], false)
      end
  end.
