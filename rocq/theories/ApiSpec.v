(** What C79 is about: which histories of calls, effects and returns are those of one graph that the
    calls use one after the other. *)
From Coq Require Import List NArith Bool.
From Verif Require Import CodecModel StreamModel DagModel ApiModel.
Import ListNotations.

Section Spec.
Variable G : Type.
Variable connect_g : pystr -> pystr -> G -> G * bool.
Variable disconnect_g : pystr -> pystr -> G -> G.
Variable dumps : G -> bytes.
Variable loads : bytes -> option G.
Variable version : pystr.

Notation mark := (mark G). Notation world := (world G). Notation answer := (answer G).
Notation Took := (Took G). Notation Called := (Called G). Notation Told := (Told G).
Notation NotSent := (NotSent G). Notation Confirmed := (Confirmed G). Notation Changed := (Changed G). Notation Lost := (Lost G).
Notation GaveUp := (GaveUp G). Notation Dropped := (Dropped G). Notation CameBack := (CameBack G).

(** The topics of the call can be written: they have no lone surrogates and are not absurdly long. *)
Definition sendable (c : call) : Prop :=
  match c with
  | Connect f t | Disconnect f t => encode_str f <> None /\ encode_str t <> None
  | _ => True
  end.

(** The graph cannot be sent: its pickle has more than 2^64 bytes. *)
Definition too_big (g : G) : Prop := (2 ^ 64 <= N.of_nat (length (dumps g)))%N.

(** What a command does to the graph, and what it answers, when nobody else is around. *)
Inductive performs : call -> G -> G -> answer -> Prop :=
| p_connect f t g g' : connect_g f t g = (g', true) -> performs (Connect f t) g g' (ADone G)
| p_cyclic f t g g' : connect_g f t g = (g', false) -> performs (Connect f t) g g' (ACyclic G)
| p_disconnect f t g : performs (Disconnect f t) g (disconnect_g f t g) (ADone G)
| p_sync g : performs Sync g g (ADone G)
| p_pause g : performs Pause g g (ANone G)
| p_resume g : performs Resume g g (ANone G)
| p_dag g : performs Dag g g (ADag G g).

(** What the command has the publishers do, who are [l]: in turn, and for sync() each answers before
    the next is told. *)
Definition duties (i : nat) (c : call) (l : list nat) : list mark :=
  match c with
  | Sync => flat_map (fun p => [Told i p SYNC; Confirmed i p]) l
  | Pause => map (fun p => Told i p PAUSE) l
  | Resume => map (fun p => Told i p RESUME) l
  | _ => []
  end.

(** The marks that concern the publishers. *)
Definition about_publishers (m : mark) : bool :=
  match m with ApiModel.Told _ _ _ _ | ApiModel.Confirmed _ _ _ => true | _ => false end.

(** The marks that concern neither the graph nor the publishers. *)
Definition about_callers (m : mark) : bool :=
  match m with
  | ApiModel.Called _ _ _ | ApiModel.Lost _ _ | ApiModel.GaveUp _ _ | ApiModel.Dropped _ _ | ApiModel.CameBack _ _ _ => true
  | _ => false
  end.

(** [explains g l h g' l' open]: in the history [h] the commands take effect one at a time, each on
    the graph that the one before it left, starting with [g] and the publishers [l] and ending with
    [g'] and [l'].  [open] is what the command that is under way at the end has had the publishers do. *)
Inductive explains (g : G) (l : list nat) : list mark -> G -> list nat -> list mark -> Prop :=
| e_start : explains g l [] g l []
| e_caller h g1 l1 o m : explains g l h g1 l1 o -> about_callers m = true -> explains g l (h ++ [m]) g1 l1 o
| e_publisher h g1 l1 o m : explains g l h g1 l1 o -> about_publishers m = true -> explains g l (h ++ [m]) g1 l1 (o ++ [m])
| e_took h g1 l1 i c a g2 : explains g l h g1 l1 (duties i c l1) -> performs c g1 g2 a ->
    explains g l (h ++ [Took i c a]) g2 l1 []
| e_not_sent h g1 l1 i : explains g l h g1 l1 [] -> too_big g1 -> explains g l (h ++ [NotSent i g1]) g1 l1 []
| e_changed h g1 l1 g2 l2 : explains g l h g1 l1 [] -> explains g l (h ++ [Changed g2 l2]) g2 l2 [].

(** What must have happened before ([h]) for a mark to be in order. *)
Definition justified (h : list mark) (m : mark) : Prop :=
  match m with
  | ApiModel.Called _ i _ => forall c, ~ In (Called i c) h
  | ApiModel.Took _ i c _ => In (Called i c) h /\ (forall c' a', ~ In (Took i c' a') h)
  | ApiModel.NotSent _ i _ => In (Called i Dag) h /\ (forall c' a', ~ In (Took i c' a') h)
  | ApiModel.CameBack _ i r =>
      (forall r', ~ In (CameBack i r') h) /\
      exists c, In (Called i c) h /\
        match r, c with
        | Returned _ None, Connect _ _ | Returned _ None, Disconnect _ _ | Returned _ None, Sync =>
            In (Took i c (ADone G)) h \/ In (Lost i) h
        | RaisedCyclic _, Connect _ _ => In (Took i c (ACyclic G)) h
        | Returned _ (Some g), Dag => In (Took i c (ADag G g)) h
        | Returned _ None, Pause | Returned _ None, Resume => True
        | RaisedOther _, _ =>
            In (Lost i) h \/ In (GaveUp i) h \/ ~ sendable c
        | _, _ => False
        end
  | _ => True
  end.

Definition in_order (h : list mark) : Prop := forall h1 m h2, h = h1 ++ m :: h2 -> justified h1 m.

(** What happens without anybody calling, giving up or breaking a connection: bytes arrive, tasks and
    callers go on, publishers answer. *)
Definition by_itself (e : event G) : bool :=
  match e with
  | ArriveUp _ _ _ | ArriveDown _ _ _ | Server _ _ | Confirm _ _ | Client _ _ => true
  | _ => false
  end.

Notation step := (step G connect_g disconnect_g dumps loads version).
Notation steps := (steps G connect_g disconnect_g dumps loads version).

(** After some history of calls, with the graph [g] and the publishers [l] at first. *)
Definition reachable (g : G) (l : list nat) (w : world) : Prop := exists es, steps (start G g l) es = Some w.

Definition at_rest (w : world) : Prop := forall e, by_itself e = true -> step w e = None.

Definition goes_on (w' w : world) : Prop := exists e, by_itself e = true /\ step w e = Some w'.
End Spec.

(** ** With the graph of DagModel *)
Section Dag.
Variable name : pystr -> topic.

(** graphserver.py:1347-1365 with PERSISTENT_EDGE_OWNER *)
Definition connect_dag (f t : pystr) (d : dag) : dag * bool :=
  let (d', r) := add_edge (name f) (name t) None d in (d', match r with Cyclic => false | _ => true end).
Definition disconnect_dag (f t : pystr) (d : dag) : dag := fst (remove_edge (name f) (name t) None d).

(** The requests to the graph, in the order in which they took effect. *)
Definition requests (h : list (mark dag)) : list dag_op :=
  flat_map (fun m => match m with
                     | ApiModel.Took _ _ (Connect f t) _ => [OConnect (name f) (name t) None]
                     | ApiModel.Took _ _ (Disconnect f t) _ => [ODisconnect (name f) (name t) None]
                     | _ => []
                     end) h.
End Dag.
