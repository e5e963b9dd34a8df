(** From a unit's class to what its process runs.
    Models
      backendprocess.py:459-535   the coroutines, handlers, subscribers and publishers of a process,
      backendprocess.py:670-684   task_wrapper: publish and perf_publish,
      unit.py:149-165, 196-216    publisher and subscriber (the attributes they set on a function),
      unit.py:261-275             timeit.

    The classes, and with them the tasks and streams of a unit, are those of ClassModel.

    Simplifications.  A function is a number; [fns] says its name and the stream it is subscribed
    to.  A stream is a number; [sts] says whether it is an input or an output and its options, of
    which those of an output are one number.  A callable is the unit's address and the function.
    Creating a subscriber or publisher succeeds.  Settings reports are a flag of the handler. *)
From Coq Require Import String List Bool Arith.
From Verif Require Import Dict ClassModel.
Import ListNotations.
Open Scope string_scope.

(** A function of a unit: its [__name__] and the stream given to [@subscriber] (SUBSCRIBES_ATTR). *)
Record fn := Fn { fn_name : string; fn_subs : option nat }.

(** The options of a stream. *)
Inductive stream := InS (leaky : bool) (max_queue : option nat) | OutS (options : nat).

(** A unit: its address and its class. *)
Record unit_ := Unit_ { u_addr : string; u_class : class }.

(** What the process runs as a coroutine (475-476, 487-515). *)
Inductive coro :=
| RunTask (unit_addr : string) (f : nat)
| Handle (topic : string) (leaky : bool) (max_queue : option nat) (handlers : list (string * nat)) (reports : bool).

Section Wire.
Variable w : world.
Variable fns : nat -> fn.
Variable sts : nat -> stream.

(** addressable.py:64-75, component.py:189-190: the address of a stream of a unit; [None]: it has no
    name (AssertionError). *)
Definition stream_addr (u : unit_) (s : nat) : option string :=
  option_map (fun n => u_addr u ++ "/" ++ n) (get s (w_streams w)).

(** 475: the name of the coroutine of a task without subscription. *)
Definition task_key (u : unit_) (f : nat) : string := "TASK|" ++ u_addr u ++ ":" ++ fn_name (fns f).

Notation callables := (list (string * list (string * nat))).

(** 465-476: the tasks of a unit; [None]: an exception (KeyError, or a stream without a name). *)
Fixpoint wire_tasks (u : unit_) (tasks : list (string * nat)) (coros : list (string * coro)) (subs : callables) :
  option (list (string * coro) * callables) :=
  match tasks with
  | [] => Some (coros, subs)
  | (_, f) :: r =>
      match fn_subs (fns f) with
      | Some s =>
          match get s (w_streams w) with
          | None => None
          | Some n =>
              match get n (k_streams (u_class u)) with
              | None => None
              | Some s' =>
                  match stream_addr u s' with
                  | None => None
                  | Some a => wire_tasks u r coros (put a (getd a [] subs ++ [(u_addr u, f)])%list subs)
                  end
              end
          end
      | None => wire_tasks u r (put (task_key u f) (RunTask (u_addr u) f) coros) subs
      end
  end.

(** 478-535: the streams of a unit. *)
Fixpoint wire_streams (u : unit_) (streams : list (string * nat)) (subs : callables)
  (coros : list (string * coro)) (pubs : list (string * nat)) :
  option (list (string * coro) * list (string * nat)) :=
  match streams with
  | [] => Some (coros, pubs)
  | (_, s) :: r =>
      match get s (w_streams w), stream_addr u s with
      | Some n, Some a =>
          match sts s with
          | InS leaky mq =>
              wire_streams u r subs
                (put ("SUBSCRIBER|" ++ a) (Handle a leaky mq (getd a [] subs) (eqd n "INPUT_SETTINGS")) coros) pubs
          | OutS o => wire_streams u r subs coros (put a o pubs)
          end
      | _, _ => None
      end
  end.

(** 462-535: all units of a process. *)
Fixpoint wire (units : list unit_) (coros : list (string * coro)) (pubs : list (string * nat)) :
  option (list (string * coro) * list (string * nat)) :=
  match units with
  | [] => Some (coros, pubs)
  | u :: r =>
      match wire_tasks u (k_tasks (u_class u)) coros [] with
      | None => None
      | Some (coros, subs) =>
          match wire_streams u (k_streams (u_class u)) subs coros pubs with
          | None => None
          | Some (coros, pubs) => wire r coros pubs
          end
      end
  end.

(** 676-679: what is yielded for a stream is broadcast by the publisher with its address, if the
    process has one.  [None]: AssertionError; [Some None]: nothing is sent. *)
Definition publish (u : unit_) (s : nat) (pubs : list (string * nat)) : option (option (string * nat)) :=
  match stream_addr u s with
  | None => None
  | Some a => Some (option_map (fun o => (a, o)) (get a pubs))
  end.

(** What calling a function comes to. *)
Inductive outcome (V : Type) := Returned (v : V) | RaisedUser (e : nat) | RaisedKeyError | RaisedTypeError.
Arguments Returned {V}. Arguments RaisedUser {V}. Arguments RaisedKeyError {V}. Arguments RaisedTypeError {V}.

(** unit.py:263-273: the wrapper that @timeit makes of a function.  [self._tasks] is a dict of
    callables (component.py:114, unit.py:88-89), and a callable cannot be unpacked into two. *)
Definition timeit {A V} (u : unit_) (f : nat) (func : A -> outcome V) (args : A) : outcome V :=
  match func args with
  | Returned res =>
      match get (fn_name (fns f)) (k_tasks (u_class u)) with
      | None => RaisedKeyError
      | Some _ => RaisedTypeError
      end
  | o => o
  end.
End Wire.
