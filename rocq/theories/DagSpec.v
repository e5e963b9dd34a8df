(* What the properties of the topic graph mean, stated without the algorithms
   of dag.py: edges, directed paths, and who owns an edge after a history of
   requests and answers. *)

From Coq Require Import String List Relations.
From Verif Require Import Dict DagModel.
Import ListNotations.

(** There is an edge from [a] to [b] in the graph the server reports. *)
Definition edge_in (g : graph) (a b : topic) : Prop := exists s, In (a, s) g /\ In b s.
Definition has_edge (d : dag) : topic -> topic -> Prop := edge_in (d_graph d).

(** A directed path of one or more edges. *)
Definition path (d : dag) : topic -> topic -> Prop := clos_trans topic (has_edge d).

(** No directed cycle. *)
Definition acyclic (d : dag) : Prop := forall a, ~ path d a a.

(** The path relation if the edge (f, t) were added. *)
Definition path_with (d : dag) (f t : topic) : topic -> topic -> Prop :=
  clos_trans topic (fun a b => has_edge d a b \/ (a = f /\ b = t)).

(** The topics that touch an edge. *)
Definition touches_edge (d : dag) (n : topic) : Prop :=
  exists m, has_edge d n m \/ has_edge d m n.

(** A request with its answer, and the histories they make. *)
Definition event := (dag_op * dag_ans)%type.

(** The event gives up [o]'s ownership of (f, t). *)
Definition gives_up (f t : topic) (o : owner) (ev : event) : Prop :=
  fst ev = ODisconnect f t o \/ fst ev = ODropOwner o.

(** After history [h], [o] owns (f, t): it connected them, was not refused,
    and has not given the edge up since. *)
Definition owns (h : list event) (f t : topic) (o : owner) : Prop :=
  exists before after r,
    h = before ++ (OConnect f t o, AConnect r) :: after /\
    r <> Cyclic /\
    (forall ev, In ev after -> ~ gives_up f t o ev).

(** The state and history after a list of requests to a new graph. *)
Definition state_after (ops : list dag_op) : dag := fst (dag_run empty_dag ops).
Definition history (ops : list dag_op) : list event := snd (dag_run empty_dag ops).
