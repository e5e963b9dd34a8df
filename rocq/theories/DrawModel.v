(* Model of the drawing of a graph as text: /repo/src/ezmsg/core/graph_util.py
     183-272  graph_string,
   and of GraphService.get_formatted_graph, /repo/src/ezmsg/core/graphserver.py 1902-1936.

   A Python string is a list of characters, a character a Coq [ascii] read as Latin-1
   (simplification: code points above 255 are left out).  The names of topics are Coq strings, as in
   DagModel.  The level separator is "/", its default, the only one get_formatted_graph uses.
   uuid4 is a parameter: [uuid i] is what the i-th call returns. *)

From Coq Require Import String Ascii List Arith Bool.
From Verif Require Import Dict PruneModel.
Import ListNotations.
Open Scope bool_scope.

Notation text := (list ascii).

(** A literal of the program. *)
Notation T := list_ascii_of_string.

Inductive format := Mermaid | Graphviz.

(** ** The parts of Python's str used *)

Definition newline : ascii := "010"%char.

(** str.splitlines: the characters that end a line (a line feed, a vertical tab, a form feed, a
    carriage return, the file, group and record separators and the next-line character). *)
Definition line_break (c : ascii) : bool :=
  let n := nat_of_ascii c in
  (n =? 10) || (n =? 11) || (n =? 12) || (n =? 13) || (n =? 28) || (n =? 29) || (n =? 30) || (n =? 133).

(** str.isspace for one character, as str.strip uses it. *)
Definition white (c : ascii) : bool :=
  let n := nat_of_ascii c in
  (n =? 9) || (n =? 10) || (n =? 11) || (n =? 12) || (n =? 13) || (n =? 28) || (n =? 29) || (n =? 30) ||
  (n =? 31) || (n =? 32) || (n =? 133) || (n =? 160).

(** str.splitlines(True): the lines with their ends; [cur] is the line being read, reversed.  A
    carriage return and a line feed end one line together. *)
Fixpoint splitlines (cur s : text) : list text :=
  match s with
  | [] => match cur with [] => [] | _ => [rev cur] end
  | c :: s =>
      if line_break c then
        match s with
        | d :: _ =>
            if (nat_of_ascii c =? 13) && (nat_of_ascii d =? 10) then splitlines (c :: cur) s
            else rev (c :: cur) :: splitlines [] s
        | [] => [rev (c :: cur)]
        end
      else splitlines (c :: cur) s
  end.

(** 7 *)
Definition IND : text := T "  ".

(** textwrap.indent(text, prefix): lines that are only white space stay as they are. *)
Definition indent (s : text) : text :=
  flat_map (fun line => if forallb white line then line else IND ++ line) (splitlines [] s).

(** "\n".join(l) *)
Fixpoint joinlines (l : list text) : text :=
  match l with
  | [] => []
  | [s] => s
  | s :: l => s ++ newline :: joinlines l
  end.

(** str.split("/") *)
Fixpoint split (s : text) : list text :=
  match s with
  | [] => [[]]
  | c :: s =>
      if Ascii.eqb c "/"%char then [] :: split s
      else match split s with p :: ps => (c :: p) :: ps | [] => [[c]] end
  end.

(** str.lower for one character. *)
Definition lower_char (c : ascii) : ascii :=
  let n := nat_of_ascii c in
  if ((65 <=? n) && (n <=? 90)) || ((192 <=? n) && (n <=? 222) && negb (n =? 215)) then ascii_of_nat (n + 32)
  else c.

Definition lower (s : text) : text := map lower_char s.

(** sorted(conns): code point order. *)
Fixpoint insert (x : string) (l : list string) : list string :=
  match l with
  | [] => [x]
  | y :: l => if String.leb x y then x :: y :: l else y :: insert x l
  end.

Definition sorted (l : list string) : list string := fold_right insert [] l.

(** ** graph_string *)

(** 196-201: the names of the nodes in the drawing; the i-th key gets the i-th uuid. *)
Fixpoint node_map (fmt : format) (uuid : nat -> text) (i : nat) (names : list string) (m : list (string * text))
  : list (string * text) :=
  match names with
  | [] => m
  | n :: names =>
      let id := match fmt with
                | Mermaid => uuid i
                | Graphviz => T """" ++ uuid i ++ T """"
                end in
      node_map fmt uuid (S i) names (match get n m with Some _ => m | None => put n id m end)
  end.

(** 204-207: defaultdict(tree); a leaf is the str stored at 215. *)
Inductive tree := Leaf (name : string) | Dir (kids : list (text * tree)).

#[global] Instance dec_ascii : Dec ascii := ascii_dec.

(** 211-215: [None] is a TypeError (a str has no items to set, and no str is an index of a str). *)
Fixpoint plant (path : list text) (name : string) (kids : list (text * tree)) : option (list (text * tree)) :=
  match path with
  | [] => None
  | [seg] => Some (put seg (Leaf name) kids)
  | seg :: path =>
      match get seg kids with
      | Some (Leaf _) => None
      | Some (Dir kids') => option_map (fun k => put seg (Dir k) kids) (plant path name kids')
      | None => option_map (fun k => put seg (Dir k) kids) (plant path name [])
      end
  end.

(** 217-221: the text of one connection; [None] is a KeyError. *)
Definition connection (fmt : format) (m : list (string * text)) (node conn : string) : option text :=
  match get node m, get conn m with
  | Some a, Some b =>
      match fmt with
      | Mermaid => Some (a ++ T " --> " ++ b ++ [newline])
      | Graphviz => Some (a ++ T " -> " ++ b ++ T ";" ++ [newline])
      end
  | _, _ => None
  end.

Fixpoint connect_all (fmt : format) (m : list (string * text)) (node : string) (conns : list string) (acc : text)
  : option text :=
  match conns with
  | [] => Some acc
  | c :: conns =>
      match connection fmt m node c with
      | None => None
      | Some s => connect_all fmt m node conns (acc ++ s)
      end
  end.

(** 210-221 *)
Fixpoint construct (fmt : format) (m : list (string * text)) (g : list (string * list string))
  (kids : list (text * tree)) (acc : text) : option (list (text * tree) * text) :=
  match g with
  | [] => Some (kids, acc)
  | (node, conns) :: g =>
      match plant (split (T node)) node kids with
      | None => None
      | Some kids =>
          match connect_all fmt m node (sorted conns) acc with
          | None => None
          | Some acc => construct fmt m g kids acc
          end
      end
  end.

(** 230-258 (node_string) with 260-267 (graph_structure_string) in the place of its call.  The
    branch [out = None] is never taken: an entry is a dict or a str. *)
Fixpoint node_string (fmt : format) (m : list (string * text)) (node : text) (t : tree) : list text :=
  match t with
  | Dir kids =>
      let structure :=
        removelast
          (concat (map (fun k => indent (joinlines (node_string fmt m (fst k) (snd k) ++ [[]]))) kids)) in
      match fmt with
      | Graphviz =>
          [T "subgraph " ++ lower node ++ T " {";
           indent (T "cluster = true;");
           indent (T "label = """ ++ node ++ T """;");
           structure ++ T "};"]
      | Mermaid =>
          [T "subgraph " ++ lower node ++ T " [" ++ node ++ T "]";
           structure;
           T "end"]
      end
  | Leaf name =>
      let id := getd name [] m in
      match fmt with
      | Graphviz => [id ++ T " [label=" ++ node ++ T "];"]
      | Mermaid => [id ++ T "[" ++ node ++ T "]"]
      end
  end.

(** 260-267 *)
Definition graph_structure_string (fmt : format) (m : list (string * text)) (kids : list (text * tree)) : text :=
  removelast (concat (map (fun k => indent (joinlines (node_string fmt m (fst k) (snd k) ++ [[]]))) kids)).

(** 183-272 *)
Definition graph_string (fmt : format) (direction : text) (uuid : nat -> text) (g : list (string * list string))
  : option text :=
  let m := node_map fmt uuid 0 (keys g) [] in
  match construct fmt m g [] [] with
  | None => None
  | Some (kids, connections) =>
      let header := match fmt with
                    | Graphviz => [T "digraph EZ {"; indent (T "rankdir=""" ++ direction ++ T """")]
                    | Mermaid => [T "flowchart " ++ direction]
                    end in
      let footer := match fmt with Graphviz => [T "}"] | Mermaid => [] end in
      Some (joinlines (header ++ [graph_structure_string fmt m kids; indent connections] ++ footer))
  end.

(** A name and the segments PruneModel's compactification works on: "a/b" is [a; b]. *)
Definition segments (n : string) : list string := map string_of_list_ascii (split (T n)).

Definition unsegment (l : list string) : string := String.concat "/" l.

(** graphserver.py 1902-1936, after dag() has answered: [None] is an exception (LeafNodeException, a
    TypeError or KeyError of graph_string).  An absent compact_level is 0. *)
Definition get_formatted_graph (fmt : format) (direction : text) (uuid : nat -> text) (compact_level : nat)
  (g : list (string * list string)) : option text :=
  match g with
  | [] => Some []
  | _ =>
      match compact_level with
      | 0 => graph_string fmt direction uuid g
      | _ =>
          let pruned := fst (prune_graph_connections g) in
          let g' := map (fun e => (segments (fst e), map segments (snd e))) pruned in
          match get_compactified_graph g' compact_level with
          | None => None
          | Some c => graph_string fmt direction uuid (map (fun e => (unsegment (fst e), map unsegment (snd e))) c)
          end
      end
  end.
