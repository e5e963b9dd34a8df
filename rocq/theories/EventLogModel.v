(* Model of the graph server's event logs.  The settings log and the topology
   log are the same code twice:
     graphserver.py:1373-1400 _append_settings_event_locked,
     graphserver.py:1402-1426 _append_topology_event_locked,
     graphserver.py:790-802  _queue_stream_event,
     graphserver.py:804-821  _stream_sender,
     graphserver.py:823-860  _handle_event_subscriber,
     graphserver.py:1625-1633 the query for events after a sequence number.
   [A] is what an event carries besides its number (kind, address, value,
   sources; the time stamp is not modelled).

   Simplifications: a sequence number asked for is a natural number (the events
   are numbered from 1, so a negative one asks for the same events as 0); the
   bytes of the stream are the list of events written to it (C02 covers the
   framing). *)

From Coq Require Import List Arith.
From Verif Require Import Dict.
Import ListNotations.

(** An event: its sequence number and its contents. *)
Notation event A := (nat * A)%type.

Section EventLog.
Context {A : Type}.

(** A stream subscriber: its bounded queue and what has been written to it. *)
Record subscriber := mkSub { q_queue : list (event A); q_out : list (event A) }.

Record log := mkLog {
  l_limit : nat;                        (* _RetentionPolicy, graphserver.py:79-89 *)
  l_seq : nat;
  l_events : list (event A);
  l_subs : list (nat * subscriber)
}.

Definition new_log (limit : nat) : log := mkLog limit 0 [] [].

(** graphserver.py:869, 887 — asyncio.Queue(maxsize=1024). *)
Definition queue_cap : nat := 1024.

(** graphserver.py:790-802 — _queue_stream_event: on QueueFull, get_nowait then
    put_nowait. *)
Definition queue_event (q : list (event A)) (e : event A) : list (event A) :=
  if (length q <? queue_cap)%nat then q ++ [e] else tl q ++ [e].

Definition offer (e : event A) (s : subscriber) : subscriber :=
  mkSub (queue_event (q_queue s) e) (q_out s).

(** graphserver.py:1396-1400, 1423-1426 — [del events[0 : len - max]]. *)
Definition trim (limit : nat) (l : list (event A)) : list (event A) :=
  if (limit <? length l)%nat then skipn (length l - limit) l else l.

(** graphserver.py:1373-1400, 1402-1426. *)
Definition append (a : A) (L : log) : log :=
  let n := S (l_seq L) in
  let e := (n, a) in
  mkLog (l_limit L) n (trim (l_limit L) (l_events L ++ [e]))
        (map (fun p => (fst p, offer e (snd p))) (l_subs L)).

(** graphserver.py:1625-1633 — events with a number greater than [after]. *)
Definition events_after (after : nat) (L : log) : list (event A) :=
  filter (fun e => (after <? fst e)%nat) (l_events L).

(** graphserver.py:834-838 — a new subscriber; the retained events it asked for
    are queued one by one. *)
Definition subscribe (id after : nat) (L : log) : log :=
  mkLog (l_limit L) (l_seq L) (l_events L)
        (put id (mkSub (fold_left queue_event (events_after after L) []) []) (l_subs L)).

(** graphserver.py:855-856 — the subscriber has gone. *)
Definition unsubscribe (id : nat) (L : log) : log :=
  mkLog (l_limit L) (l_seq L) (l_events L) (del id (l_subs L)).

(** graphserver.py:804-821 — _stream_sender takes one event and writes it. *)
Definition send (id : nat) (L : log) : log :=
  match get id (l_subs L) with
  | Some s =>
      match q_queue s with
      | [] => L
      | e :: r => mkLog (l_limit L) (l_seq L) (l_events L)
                        (put id (mkSub r (q_out s ++ [e])) (l_subs L))
      end
  | None => L
  end.

Inductive log_op :=
| Append (a : A)
| Subscribe (id after : nat)
| Unsubscribe (id : nat)
| Send (id : nat).

Definition log_step (L : log) (op : log_op) : log :=
  match op with
  | Append a => append a L
  | Subscribe id after => subscribe id after L
  | Unsubscribe id => unsubscribe id L
  | Send id => send id L
  end.

Definition log_run (L : log) (ops : list log_op) : log := fold_left log_step ops L.

End EventLog.
Arguments subscriber : clear implicits.
Arguments log : clear implicits.
Arguments log_op : clear implicits.
