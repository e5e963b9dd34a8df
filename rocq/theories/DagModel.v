(* Model of the topic graph: /repo/src/ezmsg/core/dag.py (whole file).
   Topics are strings; an owner is a session id (a number) or None, the
   persistent owner (dag.py:20, graphserver.py:66).  Python sets and dicts are
   modelled in Dict.v. *)

From Coq Require Import String List Arith.
From Verif Require Import Dict.
Import ListNotations.

Notation topic := string.
Notation owner := (option nat).
Notation edge := (topic * topic)%type.

(** dag.py:18 — [defaultdict[str, set[str]]]. *)
Definition graph := list (topic * list topic).

(** dag.py:23-36 — the DAG dataclass. *)
Record dag := mkDag {
  d_graph : graph;
  d_owners : list (edge * list owner)
}.

(** dag.py:33-36 — a new DAG is empty. *)
Definition empty_dag : dag := mkDag [] [].

(** Reading [graph[n]] of a defaultdict(set) creates the key (dag.py:64, 101, 110). *)
Definition touch (n : topic) (g : graph) : graph :=
  match get n g with Some _ => g | None => put n [] g end.

(** [graph[f].add(t)] of a defaultdict(set) (dag.py:66, 100, 109). *)
Definition add_arc (f t : topic) (g : graph) : graph :=
  put f (sadd t (getd f [] g)) g.

(** [graph.get(f, set()).discard(t)] (dag.py:144): an absent key stays absent. *)
Definition del_arc (f t : topic) (g : graph) : graph :=
  match get f g with Some s => put f (sdel t s) g | None => g end.

(** dag.py:38-46 — DAG.nodes. *)
Definition nodes (d : dag) : list topic := keys (d_graph d).

(** dag.py:48-67 — DAG.invgraph. *)
Definition invgraph (g : graph) : graph :=
  fold_left
    (fun inv p => fold_left (fun inv' t => add_arc t (fst p) inv') (snd p)
                            (touch (fst p) inv))
    g [].

(** dag.py:208-226 — _bfs, one iteration of the while loop per unit of fuel;
    [None] when the fuel runs out before the queue is empty. *)
Fixpoint bfs_loop (fuel : nat) (g : graph) (queue connected : list topic)
  : option (list topic) :=
  match queue with
  | [] => Some connected
  | n :: rest =>
      match fuel with
      | 0 => None
      | S f =>
          let queue' := rest ++ filter (fun t => negb (mem t connected)) (getd n [] g) in
          let connected' := fold_left (fun c t => sadd t c) queue' connected in
          bfs_loop f g queue' connected'
      end
  end.

(** dag.py:208-226 — _bfs.  The fuel bounds the number of iterations: each
    topic is queued at most once besides the start (theorem
    C27_search_always_ends shows the loop ends within it, so the [None] branch
    is never taken). *)
Definition bfs_fuel (g : graph) : nat := S (length (flat_map snd g)).
Definition bfs (g : graph) (n : topic) : list topic :=
  match bfs_loop (bfs_fuel g) g [n] [] with Some c => c | None => [] end.

(** The three ways add_edge ends: return True, return False, raise CyclicException. *)
Inductive add_result := Appeared | Unchanged | Cyclic.

(** dag.py:69-113 — DAG.add_edge.  The deep copy [test_graph] is a separate value. *)
Definition add_edge (f t : topic) (o : owner) (d : dag) : dag * add_result :=
  if eqd f t then (d, Cyclic)
  else
    let e := (f, t) in
    let eo := match get e (d_owners d) with
              | Some _ => d_owners d
              | None => put e [] (d_owners d) end in
    let owners := getd e [] eo in
    if mem o owners then (mkDag (d_graph d) eo, Unchanged)
    else
      if (length owners =? 0)%nat then
        let test_graph := touch t (add_arc f t (d_graph d)) in
        if mem f (bfs test_graph f)
        then (mkDag (d_graph d) (del e eo), Cyclic)
        else (mkDag (touch t (add_arc f t (d_graph d))) (put e (sadd o owners) eo), Appeared)
      else (mkDag (d_graph d) (put e (sadd o owners) eo), Unchanged).

(** dag.py:194-205 — _leaves. *)
Definition leaves (g : graph) : list topic :=
  map fst (filter (fun p => (length (snd p) =? 0)%nat) g).

(** dag.py:185-191 — DAG._prune. *)
Definition prune (g : graph) : graph :=
  let unconnected := filter (fun n => mem n (leaves (invgraph g))) (leaves g) in
  fold_left (fun g' n => del n g') unconnected g.

(** dag.py:115-148 — DAG.remove_edge; [true] when the topology changed. *)
Definition remove_edge (f t : topic) (o : owner) (d : dag) : dag * bool :=
  let e := (f, t) in
  match get e (d_owners d) with
  | None => (d, false)
  | Some owners =>
      if mem o owners then
        let owners' := sdel o owners in
        if (length owners' =? 0)%nat
        then (mkDag (prune (del_arc f t (d_graph d))) (del e (d_owners d)), true)
        else (mkDag (d_graph d) (put e owners' (d_owners d)), false)
      else (d, false)
  end.

(** dag.py:150-156 — DAG.remove_owner; returns the set of removed edges. *)
Definition remove_owner (o : owner) (d : dag) : dag * list edge :=
  fold_left
    (fun (acc : dag * list edge) e =>
       let '(d', removed) := acc in
       if mem o (getd e [] (d_owners d'))
       then let '(d'', changed) := remove_edge (fst e) (snd e) o d' in
            (d'', if changed : bool then sadd e removed else removed)
       else (d', removed))
    (keys (d_owners d)) (d, []).

(** dag.py:158-169 — DAG.downstream. *)
Definition downstream (n : topic) (d : dag) : list topic := bfs (d_graph d) n ++ [n].

(** dag.py:171-183 — DAG.upstream. *)
Definition upstream (n : topic) (d : dag) : list topic := bfs (invgraph (d_graph d)) n ++ [n].

(** The public operations of the class, as requests with their answers. *)
Inductive dag_op :=
| OConnect (f t : topic) (o : owner)
| ODisconnect (f t : topic) (o : owner)
| ODropOwner (o : owner).

Inductive dag_ans :=
| AConnect (r : add_result)
| ADisconnect (changed : bool)
| ADropOwner (removed : list edge).

Definition dag_step (d : dag) (op : dag_op) : dag * dag_ans :=
  match op with
  | OConnect f t o => let '(d', r) := add_edge f t o d in (d', AConnect r)
  | ODisconnect f t o => let '(d', r) := remove_edge f t o d in (d', ADisconnect r)
  | ODropOwner o => let '(d', r) := remove_owner o d in (d', ADropOwner r)
  end.

Fixpoint dag_run (d : dag) (ops : list dag_op) : dag * list (dag_op * dag_ans) :=
  match ops with
  | [] => (d, [])
  | op :: r => let '(d', a) := dag_step d op in
               let '(d'', h) := dag_run d' r in (d'', (op, a) :: h)
  end.
