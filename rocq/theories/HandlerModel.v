(* Model of how a unit's coroutines are given messages and how what they yield is published:
     backendprocess.py:669-737  task_wrapper (publish, wrapped_task),
     backendprocess.py:740-805  handle_subscriber,
     backendprocess.py:557-559  coro_wrapper,
   for one input stream of a unit with the handlers subscribed to it.

   What a handler does is arbitrary: it may yield any outputs and end in any way, also depending on
   other handlers.  A step lasts from one await to the next.

   Simplifications: the deep copy or the lease of a message are in other models (C14, C23), here a
   message is held from Recv to Release; a broadcast that raises ends the handler with that
   exception; CancelledError may arrive at any await and ends the loop. *)

From Coq Require Import List Bool.
From Verif Require Import Dict.
Import ListNotations.

Section Handler.
Context {H M S O : Type} `{Dec H}.      (* handlers, messages, output streams, objects *)

Variable handlers : list H.             (* sub_callables[stream.address], 459-466 *)
Variable has_pub : S -> bool.           (* [stream.address in self.pubs], 676 *)
Variable strict : bool.                 (* EZMSG_STRICT_SHUTDOWN, 673 *)
Variable reports : bool.                (* on_message is not None: the stream is INPUT_SETTINGS *)

(** How a handler ends: 704-735. *)
Inductive outcome := Returns | RaisesComplete | RaisesNormalTermination | RaisesOther.

Inductive phase :=
| Waiting                                (* 776-781: before next_message *)
| Reporting (m : M)                      (* 783-790: in on_message *)
| Between (m : M) (todo : list H)        (* 791: the handlers still to be called *)
| Inside (m : M) (h : H) (todo : list H) (* 795: [await callable(msg)] *)
| Closed                                 (* 777-780 *)
| Dead.                                  (* an exception has left the loop *)

Record state := State {
  callables : list H;
  at_ : phase;
  term_ev : bool;
  published : list (S * O)               (* oldest first *)
}.

Definition init : state := State handlers Waiting false [].

(** What the environment does: the subscriber yields a message, a handler yields or ends, ... *)
Inductive event :=
| Recv (m : M)
| ReportEnds (ok : bool)                 (* on_message returns or raises *)
| Call (h : H)                           (* the loop goes on with this handler *)
| Yield (s : S) (o : O)                  (* [async for stream, obj]: the object is broadcast *)
| End (out : outcome)
| Release                                (* the end of [async with next_message()] *)
| Close
| Cancel.

(** What happens. *)
Inductive happening :=
| Received (m : M)                       (* a message is taken from the subscriber *)
| Given (h : H) (m : M)                  (* the handler is called with it *)
| Yielded (h : H) (s : S) (o : O)
| Ended (h : H) (m : M) (out : outcome)
| Released (m : M)                       (* the message is given back *)
| SubClosed                              (* sub.close() *)
| Nothing.

(** 675-678 *)
Definition publish (s : S) (o : O) (out : list (S * O)) : list (S * O) :=
  if has_pub s then out ++ [(s, o)] else out.

(** None: the event cannot happen now. *)
Definition step (x : state) (e : event) : option (state * happening) :=
  match e, at_ x with
  | Recv m, Waiting =>
      match callables x with
      | [] => None
      | cs => Some (State cs (if reports then Reporting m else Between m cs) (term_ev x) (published x), Received m)
      end
  | ReportEnds _, Reporting m =>
      Some (State (callables x) (Between m (callables x)) (term_ev x) (published x), Nothing)
  | Call h, Between m todo =>
      (* the order in which a set is iterated is arbitrary *)
      if mem h todo then
        Some (State (callables x) (Inside m h (sdel h todo)) (term_ev x) (published x), Given h m)
      else None
  | Yield s o, Inside m h todo =>
      Some (State (callables x) (at_ x) (term_ev x) (publish s o (published x)), Yielded h s o)
  | End out, Inside m h todo =>
      match out with
      | Returns => Some (State (callables x) (Between m todo) (term_ev x) (published x), Ended h m out)
      | RaisesComplete =>
          Some (State (sdel h (callables x)) (Between m todo) (term_ev x) (published x), Ended h m out)
      | RaisesNormalTermination =>
          Some (State (sdel h (callables x)) (Between m todo) true (published x), Ended h m out)
      | RaisesOther =>
          if strict then Some (State (callables x) Dead (term_ev x) (published x), Ended h m out)
          else Some (State (callables x) (Between m todo) (term_ev x) (published x), Ended h m out)
      end
  | Release, Between m [] => Some (State (callables x) Waiting (term_ev x) (published x), Released m)
  | Close, Waiting =>
      match callables x with
      | [] => Some (State [] Closed (term_ev x) (published x), SubClosed)
      | _ => None
      end
  | Cancel, (Waiting | Reporting _ | Between _ _ | Inside _ _ _) =>
      Some (State (callables x) Dead (term_ev x) (published x), Nothing)
  | _, _ => None
  end.

(** Executions, with what happened, oldest first. *)
Inductive run : state -> list happening -> Prop :=
| run_init : run init []
| run_step x t e x' a : run x t -> step x e = Some (x', a) -> run x' (t ++ [a]).

End Handler.
Arguments state : clear implicits.
Arguments happening : clear implicits.
Arguments event : clear implicits.
Arguments phase : clear implicits.
