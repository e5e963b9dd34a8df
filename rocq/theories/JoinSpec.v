(* What creating publishers and subscribers is for, in terms of what a program sees. *)

From Coq Require Import String List Arith Bool Relations.
From Verif Require Import Dict DagModel DagSpec JoinModel.
Import ListNotations.

(** Publisher.create has returned publisher [p] on topic [t], and it has not been closed. *)
Definition publisher (w : world) (p : nat) (t : topic) : Prop :=
  exists b, get p (w_pubs w) = Some (mkPub t PReady b).

(** Subscriber.create has returned subscriber [s] on topic [t], it has not been closed, and it
    has its connection to the graph server. *)
Definition subscriber (w : world) (s : nat) (t : topic) : Prop :=
  exists x, get s (w_subs w) = Some x /\ s_topic x = t /\ s_ready x = true /\ s_stage x = SOpen.

(** What subscriber [s] has received: pairs of publisher and message. *)
Definition heard (w : world) (s : nat) : list (nat * nat) :=
  match get s (w_subs w) with Some x => s_got x | None => [] end.

(** Topic [a] is [b], or the connections lead from [a] to [b]. *)
Definition connected (w : world) (a b : topic) : Prop := a = b \/ path (w_dag w) a b.

(** The server is telling subscribers of a change made by connect() or disconnect(). *)
Definition changing (w : world) : Prop := exists todo cur, w_job w = Some (JNotify ForEdge todo cur).

(** The subscriber has dealt with everything the server has told it. *)
Definition caught_up (w : world) (s : nat) : Prop :=
  exists x, get s (w_subs w) = Some x /\ s_inbox x = [] /\ s_work x = None.

(** The messages received from [p], and those sent by [p]. *)
Definition from (p : nat) (l : list (nat * nat)) : list nat :=
  map snd (filter (fun e => fst e =? p) l).
Definition sent_by (p : nat) (ls : list label) : list nat :=
  flat_map (fun l => match l with Send q m => if q =? p then [m] else [] | _ => [] end) ls.

(** [P] holds from [w] on, throughout [ls]. *)
Fixpoint throughout (P : world -> Prop) (w : world) (ls : list label) : Prop :=
  P w /\ match ls with
         | [] => True
         | l :: r => forall w', step w l = Some w' -> throughout P w' r
         end.

(** Steps that are taken without the program's doing. *)
Definition by_itself (l : label) : bool :=
  match l with
  | CallPublish _ | CallSubscribe _ | CallConnect _ _ | CallDisconnect _ _ | CallQuery
  | PubCloses _ | SubCloses _ | Send _ _ | PortFails _ => false
  | _ => true
  end.

(** Nothing more happens by itself. *)
Definition at_rest (w : world) : Prop := forall l, by_itself l = true -> step w l = None.

(** No call of connect() or disconnect() is unanswered. *)
Definition no_change_open (w : world) : Prop :=
  forall i r, get i (w_waiting w) = Some r -> match r with RConnect _ _ | RDisconnect _ _ => False | _ => True end.
Definition calls_change (l : label) : bool :=
  match l with CallConnect _ _ | CallDisconnect _ _ => true | _ => false end.

(** The server has given up waiting for a subscriber. *)
Definition times_out (l : label) : bool := match l with TimeOut => true | _ => false end.
(** A publisher is closed or dies; a subscriber is closed or dies; a publisher finds no port. *)
Definition goes_wrong (l : label) : bool :=
  match l with PubCloses _ | SubCloses _ | PortFails _ => true | _ => false end.
Definition never (b : label -> bool) (ls : list label) : Prop := forall l, In l ls -> b l = false.

(** The server has no command in hand. *)
Definition idle (w : world) : Prop := w_job w = None.
(** Subscriber [s] was created but not closed, yet it will get nothing any more: the task that
    serves it has ended with an exception. *)
Definition cut_off (w : world) (s : nat) : Prop := exists x, get s (w_subs w) = Some x /\ s_stage x = SDead.
(** Publisher [p] is closed or its process dies. *)
Definition publisher_leaves (l : label) : bool := match l with PubCloses _ => true | _ => false end.
(** Publisher.create of [p] has raised. *)
Definition raised (w : world) (p : nat) : Prop := exists y, get p (w_pubs w) = Some y /\ p_stage y = PRaised.
(** Subscriber.create of [s] has returned. *)
Definition returned (w : world) (s : nat) : Prop := exists x, get s (w_subs w) = Some x /\ s_ready x = true.
(** Call [i] waits for the server. *)
Definition waits (w : world) (i : nat) : Prop := get i (w_waiting w) <> None.
