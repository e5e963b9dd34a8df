(* What a drawing says, read without looking at how it is made: a reader of the part of Mermaid's
   flowchart language and of Graphviz's DOT language that is needed, and the picture both describe.

   A text is a list of characters.  A picture has nodes, each with a name of its own and the labels
   of the boxes around it, outermost first, followed by its own label; links between names of nodes;
   and boxes, each with the labels that lead to it and the name it has in the text. *)

From Coq Require Import String Ascii List Arith Bool.
Import ListNotations.
Open Scope bool_scope.

Notation text := (list ascii).

(** ** Pictures *)

Inductive event :=
| Open (id : text)              (* a box begins *)
| Label (l : text)              (* the label of the innermost box *)
| Node (id label : text)        (* a node *)
| Close                         (* the innermost box ends *)
| Link (a b : text).            (* an arrow from a node to a node *)

Record picture := mkPicture {
  p_nodes : list (text * list text);
  p_links : list (text * text);
  p_boxes : list (list text * text)
}.

(** The picture a sequence of events describes; [stack] is the boxes that are open, innermost first,
    with name and label (the name stands for the label until one is given). *)
Fixpoint paint (stack : list (text * text)) (evs : list event) : option picture :=
  match evs with
  | [] => match stack with [] => Some (mkPicture [] [] []) | _ => None end
  | Open id :: evs => paint ((id, id) :: stack) evs
  | Label l :: evs =>
      match stack with
      | (id, _) :: stack => paint ((id, l) :: stack) evs
      | [] => paint [] evs
      end
  | Node id l :: evs =>
      match paint stack evs with
      | Some p => Some (mkPicture ((id, rev (map snd stack) ++ [l]) :: p_nodes p) (p_links p) (p_boxes p))
      | None => None
      end
  | Link a b :: evs =>
      match paint stack evs with
      | Some p => Some (mkPicture (p_nodes p) ((a, b) :: p_links p) (p_boxes p))
      | None => None
      end
  | Close :: evs =>
      match stack with
      | (id, l) :: below =>
          match paint below evs with
          | Some p => Some (mkPicture (p_nodes p) (p_links p) ((rev (map snd stack), id) :: p_boxes p))
          | None => None
          end
      | [] => None
      end
  end.

(** ** Characters *)

Definition between (lo hi : nat) (c : ascii) : bool := (lo <=? nat_of_ascii c) && (nat_of_ascii c <=? hi).
Definition digit (c : ascii) : bool := between 48 57 c.
Definition letter (c : ascii) : bool := between 65 90 c || between 97 122 c.
Definition is (x c : ascii) : bool := Ascii.eqb x c.

Definition blank (c : ascii) : bool := is " " c || is "009" c.
Definition eol : ascii := "010"%char.

Definition small (s : text) : text :=
  map (fun c => if between 65 90 c then ascii_of_nat (nat_of_ascii c + 32) else c) s.

Definition same (a b : text) : bool := if list_eq_dec ascii_dec a b then true else false.

(** The longest beginning of a text all of whose characters pass the test, and the rest. *)
Fixpoint span (f : ascii -> bool) (s : text) : text * text :=
  match s with
  | c :: r => if f c then let (a, b) := span f r in (c :: a, b) else ([], s)
  | [] => ([], [])
  end.

(** The rest of a text after a given beginning. *)
Fixpoint after (pre s : text) : option text :=
  match pre, s with
  | [], _ => Some s
  | a :: pre, c :: s => if is a c then after pre s else None
  | _ :: _, [] => None
  end.

(** ** Mermaid: https://mermaid.js.org/syntax/flowchart.html *)

(** The lines of a text. *)
Fixpoint lines (s : text) : list text :=
  match s with
  | [] => [[]]
  | c :: s =>
      if is eol c then [] :: lines s
      else match lines s with l :: ls => (c :: l) :: ls | [] => [[c]] end
  end.

(** A name may consist of letters, digits, underscores, hyphens and dots. *)
Definition name_char (c : ascii) : bool := letter c || digit c || is "_" c || is "-" c || is "." c.

(** The lower-case word "end" is reserved: "If you are using the word "end" in a Flowchart node,
    capitalize the entire word or any of the letters". *)
Definition mermaid_name (s : text) : bool :=
  negb (same s []) && forallb name_char s && negb (same s (list_ascii_of_string "end")).

(** One line: a list of events, or nothing when it is not understood. *)
Definition mermaid_line (l : text) : option (list event) :=
  let l := snd (span blank l) in
  if same l [] then Some []
  else if same l (list_ascii_of_string "end") then Some [Close]
  else match after (list_ascii_of_string "subgraph ") l with
       | Some r =>
           let (id, r) := span name_char r in
           match after (list_ascii_of_string " [") r with
           | Some r =>
               let (lab, r) := span name_char r in
               if mermaid_name id && mermaid_name lab && same r (list_ascii_of_string "]")
               then Some [Open id; Label lab] else None
           | None => None
           end
       | None =>
           let (id, r) := span name_char l in
           match after (list_ascii_of_string "[") r with
           | Some r =>
               let (lab, r) := span name_char r in
               if mermaid_name id && mermaid_name lab && same r (list_ascii_of_string "]")
               then Some [Node id lab] else None
           | None =>
               match after (list_ascii_of_string " --> ") r with
               | Some id' => if mermaid_name id && mermaid_name id' then Some [Link id id'] else None
               | None => None
               end
           end
       end.

Fixpoint mermaid_lines (ls : list text) : option (list event) :=
  match ls with
  | [] => Some []
  | l :: ls =>
      match mermaid_line l, mermaid_lines ls with
      | Some a, Some b => Some (a ++ b)
      | _, _ => None
      end
  end.

Definition directions : list string := ["TB"; "TD"; "BT"; "RL"; "LR"]%string.

Definition read_mermaid (s : text) : option picture :=
  match lines s with
  | first :: ls =>
      match after (list_ascii_of_string "flowchart ") first with
      | Some d =>
          if existsb (fun x => same d (list_ascii_of_string x)) directions then
            match mermaid_lines ls with Some evs => paint [] evs | None => None end
          else None
      | None => None
      end
  | [] => None
  end.

(** ** DOT: https://graphviz.org/doc/info/lang.html *)

Inductive token := Word (w : text) | Number (w : text) | Quoted (w : text) | Sym (c : ascii) | Arrow.

Inductive mode := Idle | InWord (w : text) | InNumber (w : text) | InQuotes (w : text) | AfterDash.

Definition word_start (c : ascii) : bool := letter c || is "_" c || between 128 255 c.
Definition word_char (c : ascii) : bool := word_start c || digit c.
Definition space (c : ascii) : bool := is " " c || between 9 13 c.
Definition symbol (c : ascii) : bool :=
  is "{" c || is "}" c || is "[" c || is "]" c || is ";" c || is "=" c || is "," c.

(** One character between two tokens. *)
Definition fresh (c : ascii) : option (mode * list token) :=
  if space c then Some (Idle, [])
  else if is """" c then Some (InQuotes [], [])
  else if word_start c then Some (InWord [c], [])
  else if digit c then Some (InNumber [c], [])
  else if symbol c then Some (Idle, [Sym c])
  else if is "-" c then Some (AfterDash, [])
  else None.

(** One character: the tokens it completes.  Escapes in quoted strings are not understood. *)
Definition scan (m : mode) (c : ascii) : option (mode * list token) :=
  match m with
  | Idle => fresh c
  | InWord w =>
      if word_char c then Some (InWord (w ++ [c]), [])
      else match fresh c with Some (m, ts) => Some (m, Word w :: ts) | None => None end
  | InNumber w =>
      if digit c then Some (InNumber (w ++ [c]), [])
      else if word_start c then None
      else match fresh c with Some (m, ts) => Some (m, Number w :: ts) | None => None end
  | InQuotes w =>
      if is """" c then Some (Idle, [Quoted w])
      else if is "\" c then None
      else Some (InQuotes (w ++ [c]), [])
  | AfterDash => if is ">" c then Some (Idle, [Arrow]) else None
  end.

Fixpoint tokens (m : mode) (s : text) : option (list token) :=
  match s with
  | [] => match m with
          | Idle => Some []
          | InWord w => Some [Word w]
          | InNumber w => Some [Number w]
          | _ => None
          end
  | c :: s =>
      match scan m c with
      | Some (m, ts) => match tokens m s with Some r => Some (ts ++ r) | None => None end
      | None => None
      end
  end.

(** "The keywords node, edge, graph, digraph, subgraph, and strict are case-independent." *)
Definition keywords : list string := ["node"; "edge"; "graph"; "digraph"; "subgraph"; "strict"]%string.

Definition keyword (s : text) : bool := existsb (fun k => same (small s) (list_ascii_of_string k)) keywords.

(** An ID of the language. *)
Definition ident (t : token) : option text :=
  match t with
  | Word w => if keyword w then None else Some w
  | Number w | Quoted w => Some w
  | _ => None
  end.

Definition says (t : token) (k : string) : bool :=
  match t with Word w => same (small w) (list_ascii_of_string k) | _ => false end.

(** Statements, up to the end of the text. *)
Fixpoint statements (ts : list token) : option (list event) :=
  match ts with
  | [] => Some []
  | Sym c :: ts =>
      if is ";" c then statements ts
      else if is "}" c then option_map (cons Close) (statements ts)
      else None
  | a :: b :: ts =>
      if says a "subgraph" then
        match ident b, ts with
        | Some id, Sym c :: ts => if is "{" c then option_map (cons (Open id)) (statements ts) else None
        | _, _ => None
        end
      else
        match ident a, b, ts with
        | Some x, Arrow, v :: ts =>
            match ident v with
            | Some y => option_map (cons (Link x y)) (statements ts)
            | None => None
            end
        | Some x, Sym c, v :: ts =>
            if is "=" c then                                   (* an attribute of the box *)
              match ident v with
              | Some y =>
                  if same x (list_ascii_of_string "label") then option_map (cons (Label y)) (statements ts)
                  else statements ts
              | None => None
              end
            else if is "[" c then                              (* a node with a label *)
              match ident v, ts with
              | Some k, Sym e :: l :: Sym f :: ts =>
                  match ident l with
                  | Some y =>
                      if same k (list_ascii_of_string "label") && is "=" e && is "]" f
                      then option_map (cons (Node x y)) (statements ts) else None
                  | None => None
                  end
              | _, _ => None
              end
            else None
        | _, _, _ => None
        end
  | _ => None
  end.

(** The whole text: digraph ID { statements } *)
Definition read_dot (s : text) : option picture :=
  match tokens Idle s with
  | Some (d :: n :: Sym c :: ts) =>
      match ident n with
      | Some _ =>
          if says d "digraph" && is "{" c then
            match statements ts with
            | Some evs =>
                match rev evs with
                | Close :: body => paint [] (rev body)
                | _ => None
                end
            | None => None
            end
          else None
      | None => None
      end
  | _ => None
  end.

(** ** Topics *)

(** A topic's name, from the labels around it. *)
Definition full_name (path : list text) : string := String.concat "/" (map string_of_list_ascii path).

(** m is the name of something n is inside of. *)
Definition inside (n m : string) : Prop := exists r : string, n = (m ++ "/" ++ r)%string.

(** The parts of a name between its slashes. *)
Definition part (p : text) (n : string) : Prop :=
  exists a b : text,
    list_ascii_of_string n = a ++ p ++ b /\ ~ In "/"%char p /\
    (a = [] \/ exists a', a = a' ++ ["/"%char]) /\ (b = [] \/ exists b', b = "/"%char :: b').

(** Names both languages leave alone.  Mermaid: the parts are names, and none spells "end". *)
Definition fit_for_mermaid (n : string) : Prop :=
  forall p, part p n -> p <> [] /\ forallb name_char p = true /\ small p <> list_ascii_of_string "end".

(** DOT: the parts are words that are no keyword. *)
Definition fit_for_dot (n : string) : Prop :=
  forall p, part p n ->
    (exists c r, p = c :: r /\ (letter c || is "_" c) = true /\ forallb (fun c => letter c || digit c || is "_" c) r = true) /\
    keyword p = false.

(** What uuid4 is trusted for: different every time; hexadecimal digits and hyphens. *)
Definition uuids (uuid : nat -> text) : Prop :=
  (forall i j, uuid i = uuid j -> i = j) /\
  (forall i, uuid i <> [] /\ forallb (fun c => digit c || between 97 102 c || is "-" c) (uuid i) = true).

(** A graph: a dict of sets, that is, no key and no member twice. *)
Definition graph_ok (g : list (string * list string)) : Prop :=
  NoDup (map fst g) /\ forall n ts, In (n, ts) g -> NoDup ts.

Definition connected (g : list (string * list string)) (a b : string) : Prop :=
  exists ts, In (a, ts) g /\ In b ts.

(** [m] comes after [n] in the graph. *)
Definition comes_after (g : list (string * list string)) (m n : string) : Prop :=
  exists l1 l2, map fst g = l1 ++ n :: l2 /\ In m l2.

(** The picture shows these topics and all connections of the graph, each once. *)
Definition shows (p : picture) (shown : string -> Prop) (g : list (string * list string)) : Prop :=
  exists id : string -> text,
    (forall m n, In m (map fst g) -> In n (map fst g) -> id m = id n -> m = n) /\
    NoDup (map fst (p_nodes p)) /\
    (forall i path, In (i, path) (p_nodes p) ->
       (forall s, In s path -> ~ In "/"%char s) /\
       In (full_name path) (map fst g) /\ i = id (full_name path)) /\
    (forall n, In n (map fst g) -> shown n -> exists path, In (id n, path) (p_nodes p) /\ full_name path = n) /\
    (forall i path, In (i, path) (p_nodes p) -> shown (full_name path)) /\
    NoDup (p_links p) /\
    (forall a b, connected g a b -> In (id a, id b) (p_links p)) /\
    (forall x y, In (x, y) (p_links p) -> exists a b, connected g a b /\ x = id a /\ y = id b).

(** The boxes of the picture: one for every beginning of a shown topic's labels, named by its own
    label in lower case. *)
Definition boxed (p : picture) (shown : string -> Prop) (g : list (string * list string)) : Prop :=
  NoDup (map fst (p_boxes p)) /\
  forall path id,
    In (path, id) (p_boxes p) <->
    path <> [] /\ (forall s, In s path -> ~ In "/"%char s) /\ id = small (last path []) /\
    exists n, In n (map fst g) /\ shown n /\ inside n (full_name path).

(** No topic of the graph is inside another one that comes after it. *)
Definition uncovered (g : list (string * list string)) (n : string) : Prop :=
  ~ exists m, comes_after g m n /\ inside n m.
