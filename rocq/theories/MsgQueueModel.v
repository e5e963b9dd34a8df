(* Model of src/ezmsg/util/messagequeue.py, MessageQueue (29-92), and of
   src/ezmsg/util/terminate.py, TerminateOnTotal (51-106).

   asyncio.Queue is Python's: put waits while the queue is full, put_nowait raises QueueFull then,
   get waits while it is empty; a maxsize of 0 or less means no bound.  The monitor task only logs;
   the output rate only delays the sender, who may take its time here anyhow. *)

From Coq Require Import List ZArith Bool.
Import ListNotations.
Open Scope Z_scope.

Section Queue.
Context {M : Type}.

(** 22-24, 43-50: the settings, and whether the queue leaks. *)
Record settings := Settings { maxsize : Z; leaky : bool }.
Definition leaks (c : settings) : bool := if leaky c && (maxsize c <=? 0) then false else leaky c.

(** The queue, oldest first; the message on_message waits to put; what has been sent and what has
    been dropped, newest first. *)
Record queue := Queue { items : list M; waiting : option M; sent : list M; dropped : list M }.

Definition initialize : queue := Queue [] None [] [].

Definition full (c : settings) (q : queue) : bool := (0 <? maxsize c) && (maxsize c <=? Z.of_nat (length (items q))).

Inductive event :=
| Arrive (m : M)     (* 66-76 on_message *)
| Put                (* on_message, woken up, tries again *)
| Send.              (* 84-86 send_message takes a message and publishes it *)

(** None: the event cannot happen now; on_message handles one message at a time. *)
Definition step (c : settings) (q : queue) (e : event) : option queue :=
  match e with
  | Arrive m =>
      match waiting q with
      | Some _ => None
      | None =>
          if leaks c then
            if full c q then
              (* 74-76: get_nowait, put_nowait *)
              match items q with
              | o :: r => Some (Queue (r ++ [m]) None (sent q) (o :: dropped q))
              | [] => None
              end
            else Some (Queue (items q ++ [m]) None (sent q) (dropped q))
          else if full c q then Some (Queue (items q) (Some m) (sent q) (dropped q))
          else Some (Queue (items q ++ [m]) None (sent q) (dropped q))
      end
  | Put =>
      match waiting q with
      | None => None
      | Some m => if full c q then None else Some (Queue (items q ++ [m]) None (sent q) (dropped q))
      end
  | Send =>
      match items q with
      | [] => None
      | m :: r => Some (Queue r (waiting q) (m :: sent q) (dropped q))
      end
  end.

(** Histories, newest event first. *)
Inductive after (c : settings) : list event -> queue -> Prop :=
| after_start : after c [] initialize
| after_event h q e q' : after c h q -> step c q e = Some q' -> after c (e :: h) q'.
End Queue.
Arguments queue : clear implicits.
Arguments event : clear implicits.

(** ** TerminateOnTotal *)

(** 62-64 *)
Record total_state := Total { total : option Z; n_messages : Z }.

Inductive total_event := Message | NewTotal (t : option Z).

(** 101-106 *)
Definition maybe_terminate (s : total_state) : bool :=
  match total s with Some t => t <=? n_messages s | None => false end.

(** 88-99: the state, and whether NormalTermination is raised. *)
Definition total_step (s : total_state) (e : total_event) : total_state * bool :=
  let s' := match e with
            | NewTotal t => Total t (n_messages s)
            | Message => Total (total s) (n_messages s + 1)
            end in
  (s', maybe_terminate s').

(** 84-85 *)
Definition total_initialize (t : option Z) : total_state := Total t 0.

(** The events, oldest first, up to the one that raises; the number of events handled then. *)
Fixpoint total_run (s : total_state) (es : list total_event) : option nat :=
  match es with
  | [] => None
  | e :: es => let (s', r) := total_step s e in if r then Some 1%nat else option_map S (total_run s' es)
  end.
