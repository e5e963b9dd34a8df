(* Model of component trees and of what the backend makes of them:
     addressable.py:64-75          address,
     component.py:183-190          _set_location,
     backend.py:75-87              crawl_components,
     backend.py:151-326            ExecutionContext.setup (names, relays, connections, processes),
     backend.py:982-1032           collect_processes, _collect_processes.

   A component is its name, its streams and, for a collection, its children.  Components are
   identified by where they are in the tree; that the same object cannot be in two places is
   ensured by the assertions of Addressable (27-37) and by the deep copies of collection.py:66.
   Settings, tasks and configure() are left out. *)

From Coq Require Import List NArith Bool.
From Verif Require Import Dict CodecModel.
Import ListNotations.

Notation name := pystr (only parsing).
Notation path := (list pystr) (only parsing).

(** stream.py: what the backend distinguishes about a stream. *)
Inductive kind := Plain | InputRelay | OutputRelay.

(** A connection's endpoint (170-180): a stream of the collection or of a component in it, named
    from the collection, or a topic. *)
Inductive endpoint := Inner (p : list pystr) | Topic (t : pystr).

Inductive comp :=
| UnitC (n : pystr) (streams : list (pystr * kind))
        (own_process : bool)             (* hasattr(unit, "__ez_process__") *)
        (process_funcs : list pystr)     (* functions of the unit with that attribute, unit.py:320-332 *)
| CollC (n : pystr) (streams : list (pystr * kind)) (children : list comp)
        (listed : list pystr)            (* the children in process_components() *)
        (network : list (endpoint * endpoint)).

Definition name_of (c : comp) : pystr := match c with UnitC n _ _ _ | CollC n _ _ _ _ => n end.
Definition streams_of (c : comp) : list (pystr * kind) := match c with UnitC _ s _ _ | CollC _ s _ _ _ => s end.
Definition children_of (c : comp) : list comp := match c with UnitC _ _ _ _ => [] | CollC _ _ cs _ _ => cs end.

(** ** Addresses *)

Definition slash : N := 47%N.

(** str.join with "/". *)
Fixpoint join (p : list pystr) : pystr :=
  match p with
  | [] => []
  | [s] => s
  | s :: r => s ++ slash :: join r
  end.

(** A component at a location (component.py:183-190: the children of a component are located at its
    location and name). *)
Notation located := (list pystr * comp)%type.

Definition place (x : located) : list pystr := fst x ++ [name_of (snd x)].
Definition children_at (x : located) : list located := map (fun c => (place x, c)) (children_of (snd x)).

(** addressable.py:75 *)
Definition address (x : located) : pystr := join (place x).
Definition stream_addresses (x : located) : list pystr :=
  map (fun s => join (place x ++ [fst s])) (streams_of (snd x)).

(** backend.py:75-87.  [search] is the stack with its top, the end of the Python list, first;
    [fuel] bounds the number of components. *)
Fixpoint crawl (fuel : nat) (search : list located) : list located :=
  match fuel, search with
  | S fuel, x :: search => x :: crawl fuel (rev (children_at x) ++ search)
  | _, _ => []
  end.

Fixpoint size (c : comp) : nat :=
  match c with
  | UnitC _ _ _ _ => 1
  | CollC _ _ cs _ _ => S ((fix sizes l := match l with [] => 0 | c :: l => size c + sizes l end) cs)
  end.

Definition crawl_components (x : located) : list located := crawl (size (snd x)) [x].

(** ** Relay units *)

(** "__relay_in_", "__relay_out_", "INPUT", "OUTPUT". *)
Definition relay_in_prefix : pystr := [95; 95; 114; 101; 108; 97; 121; 95; 105; 110; 95]%N.
Definition relay_out_prefix : pystr := [95; 95; 114; 101; 108; 97; 121; 95; 111; 117; 116; 95]%N.
Definition INPUT : pystr := [73; 78; 80; 85; 84]%N.
Definition OUTPUT : pystr := [79; 85; 84; 80; 85; 84]%N.

(** 213, 237 *)
Definition relay_name (s : pystr * kind) : option pystr :=
  match snd s with
  | Plain => None
  | InputRelay => Some (relay_in_prefix ++ fst s)
  | OutputRelay => Some (relay_out_prefix ++ fst s)
  end.

(** relay.py:23-42 *)
Definition relay_unit (n : pystr) : comp := UnitC n [(INPUT, Plain); (OUTPUT, Plain)] false [].

(** 211-259: the relay units of a collection; None is the ValueError. *)
Fixpoint relay_units (streams : list (pystr * kind)) (taken : list pystr) : option (list comp) :=
  match streams with
  | [] => Some []
  | s :: r =>
      match relay_name s with
      | None => relay_units r taken
      | Some n =>
          if mem n taken then None
          else option_map (cons (relay_unit n)) (relay_units r (taken ++ [n]))
      end
  end.

(** 261-263: every collection gets its relay units.  Simplified: by recursion on the tree instead
    of the crawl, which visits the same collections. *)
Fixpoint add_relays (c : comp) : option comp :=
  match c with
  | UnitC _ _ _ _ => Some c
  | CollC n ss cs l net =>
      match (fix all cs := match cs with
                           | [] => Some []
                           | c :: cs => match add_relays c, all cs with Some c', Some cs' => Some (c' :: cs') | _, _ => None end
                           end) cs, relay_units ss (map name_of cs) with
      | Some cs', Some rs => Some (CollC n ss (cs' ++ rs) l net)
      | _, _ => None
      end
  end.

Fixpoint add_relays_all (cs : list comp) : option (list comp) :=
  match cs with
  | [] => Some []
  | c :: cs => match add_relays c, add_relays_all cs with Some c', Some cs' => Some (c' :: cs') | _, _ => None end
  end.

(** 90-97 *)
Record binding := Binding { is_input : bool; relay_in : pystr; relay_out : pystr }.

(** 225-232, 249-256: the bindings of a collection, by the address of the endpoint. *)
Definition bindings_at (x : located) : list (pystr * binding) :=
  match snd x with
  | UnitC _ _ _ _ => []
  | CollC _ ss _ _ _ =>
      flat_map (fun s => match relay_name s with
                         | None => []
                         | Some n => [(join (place x ++ [fst s]),
                                       Binding (match snd s with InputRelay => true | _ => false end)
                                               (join (place x ++ [n; INPUT])) (join (place x ++ [n; OUTPUT])))]
                         end) ss
  end.

(** ** Connections *)

(** 170-180 normalize_topic, for the network of a collection at x. *)
Definition normalize (x : located) (e : endpoint) : pystr :=
  match e with Inner p => join (place x ++ p) | Topic t => t end.

(** 264-273 *)
Definition edges_at (x : located) : list (pystr * pystr) :=
  match snd x with
  | UnitC _ _ _ _ => []
  | CollC _ _ _ _ net => map (fun e => (normalize x (fst e), normalize x (snd e))) net
  end.

(** 281-289 *)
Definition rewrite_connection (bs : list (pystr * binding)) (e : pystr * pystr) : pystr * pystr :=
  (match get (fst e) bs with
   | Some b => if is_input b then relay_out b else fst e
   | None => fst e
   end,
   match get (snd e) bs with
   | Some b => if is_input b then snd e else relay_in b
   | None => snd e
   end).

(** 291-299 *)
Definition binding_connection (b : pystr * binding) : pystr * pystr :=
  if is_input (snd b) then (fst b, relay_in (snd b)) else (relay_out (snd b), fst b).

(** 279-301 *)
Definition rewrite_connections (bs : list (pystr * binding)) (es : list (pystr * pystr)) : list (pystr * pystr) :=
  map (rewrite_connection bs) es ++ map binding_connection bs.

(** ** Processes *)

(** 998-1032: _collect_processes, for components located at loc.  A unit is given by its place. *)
Fixpoint collect (loc : list pystr) (listed : list pystr) (c : comp) : list (list (list pystr)) * list (list pystr) :=
  match c with
  | UnitC n _ own _ =>
      if mem n listed || own then ([[loc ++ [n]]], []) else ([], [loc ++ [n]])
  | CollC n _ cs l _ =>
      let r := (fix all cs := match cs with
                              | [] => ([], [])
                              | c :: cs => let (p1, u1) := collect (loc ++ [n]) l c in
                                           let (p2, u2) := all cs in (p1 ++ p2, u1 ++ u2)
                              end) cs in
      if mem n listed then (match snd r with [] => fst r | us => fst r ++ [us] end, [])
      else r
  end.

Fixpoint collect_all (loc : list pystr) (listed : list pystr) (cs : list comp)
  : list (list (list pystr)) * list (list pystr) :=
  match cs with
  | [] => ([], [])
  | c :: cs => let (p1, u1) := collect loc listed c in
               let (p2, u2) := collect_all loc listed cs in (p1 ++ p2, u1 ++ u2)
  end.

(** 982-995 *)
Definition collect_processes (loc : list pystr) (listed : list pystr) (cs : list comp) : list (list (list pystr)) :=
  let (ps, us) := collect_all loc listed cs in
  match us with [] => ps | _ => us :: ps end.

(** ** Setup *)

Record context := Context { processes : list (list (list pystr)); connections : list (pystr * pystr) }.

Inductive setup_result :=
| SetupError           (* the ValueError of 216, 240 *)
| NoContext            (* 318-319 *)
| SetupOk (c : context).

(** 151-326: setup.  [cs]: the components, named by their keys; [conns]: the connections given,
    normalized. *)
Definition setup (root : option pystr) (cs : list comp) (conns : list (pystr * pystr)) (listed : list pystr)
           (force_single_process : bool) : setup_result :=
  let loc := match root with Some r => [r] | None => [] end in
  match add_relays_all cs with
  | None => SetupError
  | Some cs' =>
      let visited := flat_map (fun c => crawl_components (loc, c)) cs' in
      let bs := flat_map bindings_at visited in
      let es := conns ++ flat_map edges_at visited in
      let ps := collect_processes loc listed cs' in
      let ps := if force_single_process then [concat ps] else ps in
      match ps with
      | [] => NoContext
      | _ => SetupOk (Context ps (match bs with [] => es | _ => rewrite_connections bs es end))
      end
  end.
