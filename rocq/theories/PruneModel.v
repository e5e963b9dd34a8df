(* Model of the graph simplifications behind the display of a graph, graph_util.py:
     10-47    prune_graph_connections,
     50-104   _pipeline_levels, _get_parent_node,
     107-180  get_compactified_graph, _validate_connections_are_leaf_nodes.

   A graph is a dict from topics to sets of topics.  For compactification a topic is
   the list of its segments, "a/b/c" being [a; b; c] (topics that begin with the separator
   or are empty are left out). *)

From Coq Require Import List Arith Bool.
From Verif Require Import Dict.
Import ListNotations.

Section Prune.
Context {K : Type} `{Dec K}.

Notation graph := (list (K * list K)).

(** 27-30 *)
Definition source_nodes (g : graph) : list K :=
  flat_map (fun e => match snd e with [] => [] | _ => [fst e] end) g.

(** 31-35 *)
Definition proxy_topics (g : graph) : list K :=
  fold_left (fun acc c => if mem c (source_nodes g) then sadd c acc else acc) (flat_map snd g) [].

(** 38-46: one proxy topic. *)
Definition union (a b : list K) : list K := fold_left (fun s x => sadd x s) b a.

Definition remove_proxy (g : graph) (p : K) : graph :=
  let downstreams := getd p [] g in
  map (fun e => (fst e, if mem p (snd e) then union (sdel p (snd e)) downstreams else snd e)) (del p g).

(** 12-47 *)
Definition prune_graph_connections (g : graph) : graph * list K :=
  (fold_left remove_proxy (proxy_topics g) g, proxy_topics g).

End Prune.

(** ** Compactification *)

Section Compact.
Context {S : Type} `{Dec S}.

Notation topic := (list S).
Notation graph := (list (topic * list topic)).

(** 94-95 *)
Definition parent (t : topic) : topic := removelast t.

(** 74-84: update_level; [n] bounds the number of ancestors. *)
Fixpoint update_level (n : nat) (depth : nat) (t : topic) (levels : list (topic * nat)) : list (topic * nat) :=
  match n with
  | 0 => levels
  | Datatypes.S n =>
      match t with
      | [] => levels
      | _ => update_level n (Datatypes.S depth) (parent t) (put t (Nat.max (getd t 0 levels) depth) levels)
      end
  end.

(** 86-91 *)
Definition pipeline_levels (g : graph) : list (topic * nat) :=
  fold_left (fun l t => update_level (length t) 0 t l) (flat_map (fun e => fst e :: snd e) g) [].

(** 164-180: None is LeafNodeException. *)
Definition validate (g : graph) : option (list (topic * nat)) :=
  let levels := pipeline_levels g in
  if forallb (fun t => getd t 0 levels =? 0) (flat_map (fun e => fst e :: snd e) g) then Some levels else None.

(** 130-145: get_node_update, with update_node_map and graph_levels. *)
Definition node_update (t : topic) (st : list (topic * topic) * list (topic * nat))
  : topic * (list (topic * topic) * list (topic * nat)) :=
  let (m, levels) := st in
  match get t m with
  | Some u => (u, st)
  | None =>
      match parent t with
      | [] => (t, (put t t m, levels))
      | _ =>
          let level := getd t 0 levels in
          if getd (parent t) 0 levels =? level + 1 then (parent t, (put t (parent t) m, levels))
          else (t, (put t t m, put t (level + (level + 1)) levels))      (* 142: += node_level + 1 *)
      end
  end.

Fixpoint node_updates (ts : list topic) (st : list (topic * topic) * list (topic * nat))
  : list topic * (list (topic * topic) * list (topic * nat)) :=
  match ts with
  | [] => ([], st)
  | t :: ts =>
      let (u, st) := node_update t st in
      let (us, st) := node_updates ts st in (u :: us, st)
  end.

(** 149-156: one pass over the connections. *)
Fixpoint compact_pass (g acc : graph) (st : list (topic * topic) * list (topic * nat))
  : graph * (list (topic * topic) * list (topic * nat)) :=
  match g with
  | [] => (acc, st)
  | (t, conns) :: g =>
      let (source, st) := node_update t st in
      let (targets, st) := node_updates conns st in
      compact_pass g (put source (sdel source (union (getd source [] acc) targets)) acc) st
  end.

(** 147-159 *)
Fixpoint compact (n : nat) (g : graph) (levels : list (topic * nat)) : graph :=
  match n with
  | 0 => g
  | Datatypes.S n =>
      let (g', st) := compact_pass g [] ([], levels) in compact n g' (snd st)
  end.

(** 107-161 *)
Definition get_compactified_graph (g : graph) (compact_level : nat) : option graph :=
  match compact_level, g with
  | 0, _ | _, [] => Some g
  | _, _ => match validate g with
            | None => None
            | Some levels => Some (compact compact_level g levels)
            end
  end.

End Compact.
