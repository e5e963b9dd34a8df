(** What a subscription to events should deliver. *)
From Coq Require Import List Arith Bool.
From Verif Require Import Dict EventLogModel EventLogSpec EventStreamModel.
Import ListNotations.

Section Spec.
Context {A V : Type}.

(** The contents of the events that were added to log [k] in the course of a run. *)
Definition added (k : which) (hs : list (happening A)) : list A :=
  flat_map (fun h => match h with
                     | Log _ j (Append a) => if dec j k then [a] else []
                     | _ => [] end) hs.

(** An event of the log that holds [all] and that a subscriber who knows those up to [n] asks for. *)
Definition wanted (n : nat) (all : list A) (e : event A) : Prop := In e (numbered all) /\ n < fst e.

(** What the system does on its own accord: neither what others do to the logs, nor what the consumer
    decides, nor the loss of the connection. *)
Definition internal (h : happening A) : bool :=
  match h with
  | Log _ _ _ | ClientLeaves _ | Cut _ _ | Reset _ => false
  | _ => true
  end.

(** The consumer stays and the connection holds. *)
Definition undisturbed (h : happening A) : Prop :=
  match h with ClientLeaves _ | Cut _ _ | Reset _ => False | _ => True end.

(** Nothing more happens of its own accord. *)
Definition at_rest (step : world A V -> happening A -> option (world A V)) (w : world A V) : Prop :=
  forall h, internal h = true -> step w h = None.

(** What a subscriber is owed that knows the events up to number [n]: of the events [old] that were
    there when the server registered it, those that the log has kept and the queue can hold; and all
    events that come [later]. *)
Definition owed (limit n : nat) (old later : list A) : list (event A) :=
  lastn 1024 (filter (fun e => n <? fst e) (lastn limit (numbered old))) ++
  skipn (length old) (numbered (old ++ later)).

End Spec.
