(* Model of the profiling decorators and of DebugLog:
     util/profiler.py:80-97    _process_obj,
     util/profiler.py:100-138  profile_method,
     util/profiler.py:141-183  profile_subpub,
     util/debuglog.py:37-44    DebugLog.log,
     backendprocess.py:690-712 task_wrapper, as far as it calls the task (the number of its
                               parameters decides how).

   A task is what it does for a message: side effects, yields, and how it ends.  functools.wraps
   keeps the signature (through __wrapped__) and the attributes by which ezmsg knows a task, so
   a wrapped task is called like the one inside.

   Simplifications: axis values are integers; a message has the axes, the dimensions and the
   shape that _process_obj looks at; the times and names in a line of the log are left out, a line
   is the sample time; the consumer takes all that a generator yields. *)

From Coq Require Import ZArith String List Bool Arith.
Import ListNotations.
Open Scope string_scope.

(** axisarray.py:51-84, 156-188 — an axis: [Linear gain offset], or coordinates. *)
Inductive axis := Linear (gain offset : Z) | Coords (data : list Z).

(** A message: an AxisArray, or something without axes. *)
Inductive obj :=
| Plain (id : nat)
| Arr (axes : list (string * axis)) (dims : list string) (shape : list nat).

Fixpoint get_ax (n : string) (l : list (string * axis)) : option axis :=
  match l with [] => None | (k, a) :: r => if String.eqb k n then Some a else get_ax n r end.
Fixpoint index_of (n : string) (l : list string) : option nat :=
  match l with [] => None | k :: r => if String.eqb k n then Some 0 else option_map S (index_of n r) end.

(** axisarray.py:75-84 and profiler.py:88-91 — the value at an index; None is IndexError. *)
Definition value (a : axis) (i : nat) : option Z :=
  match a with
  | Linear g o => Some (Z.of_nat i * g + o)%Z
  | Coords d => nth_error d i
  end.

(** What _process_obj comes to: it raises, there is no time, or the sample time. *)
Inductive stamp := Raises | NoTime | Time (t : Z).

(** profiler.py:80-97.  The comparison of line 92 is between an axis and a string and never holds. *)
Definition process_obj (oldest : bool) (o : obj) : stamp :=
  match o with
  | Plain _ => NoTime
  | Arr axes dims shape =>
      let named := match get_ax "win" axes with
                   | Some a => Some ("win", a)
                   | None => match get_ax "time" axes with Some a => Some ("time", a) | None => None end
                   end in
      match named with
      | None => NoTime                                             (* 82 *)
      | Some (n, a) =>
          match index_of n dims with
          | None => Raises                                         (* 84: get_axis *)
          | Some k =>
              let len := nth k shape 0 in
              if Nat.eqb len 0 then NoTime                            (* 86 *)
              else match value a (if oldest then 0 else len - 1) with Some t => Time t | None => Raises end
          end
      end
  end.

(** What a task does: a side effect, or a yield to a stream; and how it ends. *)
Inductive act := Do (k : nat) | Yield (stream : nat) (o : obj).
Inductive ending := Returns | Raised.

Record task := mkTask {
  takes_msg : bool;                              (* two parameters, or one *)
  is_gen : bool;                                 (* an async generator, or a coroutine function *)
  body : option obj -> list act * ending
}.

(** profiler.py:164-179 — the loop of wrapped_task: what is done, the lines logged, the end. *)
Fixpoint traced (oldest : bool) (l : list act) (e : ending) : list act * list stamp * ending :=
  match l with
  | [] => ([], [], e)
  | Do k :: r => let '(a, s, x) := traced oldest r e in (Do k :: a, s, x)
  | Yield c o :: r =>
      match process_obj oldest o with
      | Raises => ([], [], Raised)
      | t => let '(a, s, x) := traced oldest r e in (Yield c o :: a, t :: s, x)
      end
  end.

(** profiler.py:159-181 and backendprocess.py:690-712: calling a task that may be wrapped; what it does, what is logged, how it ends.
    The wrapped task always calls the one inside with a message (164), and goes over it as a generator. *)
Definition call (debug wrapped oldest : bool) (t : task) (msg : option obj) : list act * list stamp * ending :=
  let arg := if takes_msg t then msg else None in
  if debug && wrapped then
    if takes_msg t && is_gen t then let '(l, e) := body t arg in traced oldest l e
    else ([], [], Raised)                                           (* TypeError *)
  else let '(l, e) := body t arg in (l, [], e).

(** profiler.py:114-136 — profile_method: what a call returns, and what is logged; None is an exception. *)
Definition call_method (debug oldest : bool) (f : obj -> option obj) (x : obj) : option obj * list stamp :=
  match f x with
  | None => (None, [])
  | Some r =>
      if debug then match process_obj oldest r with Raises => (None, []) | t => (Some r, [t]) end
      else (Some r, [])
  end.

(** Python's s[:n]. *)
Definition slice_to (s : string) (n : Z) : string :=
  let len := Z.of_nat (String.length s) in
  substring 0 (Z.to_nat (if (n <? 0)%Z then Z.max 0 (len + n) else Z.min n len)) s.

(** debuglog.py:37-44 — the line logged and the message passed on; [repr] may raise. *)
Definition debug_log (name : string) (max_length : option Z) (repr : obj -> option string) (msg : obj) : option (string * obj) :=
  match repr msg with
  | None => None
  | Some r =>
      let logstr := name ++ " - msg=" ++ r in
      let logstr := match max_length with
                    | Some n => if (n <? Z.of_nat (String.length logstr))%Z then slice_to logstr n ++ " ... [truncated]" else logstr
                    | None => logstr
                    end in
      Some (logstr, msg)
  end.
