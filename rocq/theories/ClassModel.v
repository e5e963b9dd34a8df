(** Defining component classes.
    Models
      component.py:19-95    ComponentMeta.__init__,
      unit.py:31-71         UnitMeta.__init__,
      collection.py:17-49   CollectionMeta.__init__,
      addressable.py:26-30  Addressable._set_name (an object is named once),
      component.py:131-133, unit.py:88-91, collection.py:64-66   what an instance takes from its class,
    and of Python itself: the order of a class's ancestors ("method resolution order", C3), and the
    look-up of an attribute on a class.

    A class statement is carried out in a world of classes defined before.  A class statement that
    raises defines nothing, but the streams and components it has named stay named.

    Simplifications.  A class is its number in order of definition.  Functions, streams, components
    and settings types are told apart by numbers.  Values of other kinds are [VOther].  The messages
    the metaclasses log are left out, except that whether there was one is not an effect on the
    class anyway.  An annotation is a type, not a text.  What [type.__new__] and ABCMeta add is left
    out.  Deep copies keep names and options and are fresh objects. *)
From Coq Require Import String List Bool Arith.
From Verif Require Import Dict.
Import ListNotations.

(** What a function is decorated with (unit.py:168, 218, 234, 264, 297: attributes set on it). *)
Record decoration := Deco { d_task : bool; d_main : bool; d_thread : bool }.

(** The value of a class attribute. *)
Inductive value :=
| VStream (s : nat)                      (* an InputStream or OutputStream *)
| VTopic (s : nat)                       (* an InputTopic, OutputTopic or relay; also a Stream *)
| VComponent (c : nat)                   (* a Unit or Collection *)
| VFun (f : nat) (d : decoration)
| VType (t : nat)                        (* a class of settings or state *)
| VOther.

(** The metaclass of a class: ordinary, or one of the three of ezmsg. *)
Inductive meta := MPlain | MComponent | MUnit | MCollection.

(** A class statement: bases, the attributes in the order of the body, and the annotations of
    SETTINGS and STATE. *)
Record stmt := Stmt {
  st_meta : meta; st_bases : list nat; st_fields : list (string * value);
  st_ann_settings : option nat; st_ann_state : option nat }.

(** A class: what Python keeps, and the attributes set by the metaclasses.  [None] for the types:
    the class has no such attribute of its own. *)
Record class := Class {
  k_stmt : stmt; k_mro : list nat;
  k_streams : list (string * nat); k_settings : option nat; k_state : option nat;
  k_tasks : list (string * nat); k_main : option nat; k_threads : list (string * nat);
  k_components : list (string * nat) }.

Notation k_meta c := (st_meta (k_stmt c)).
Notation k_bases c := (st_bases (k_stmt c)).
Notation k_fields c := (st_fields (k_stmt c)).

(** The classes so far, and the names given to streams and to components. *)
Record world := World { w_classes : list class; w_streams : list (nat * string); w_components : list (nat * string) }.

(* ---- Python: the order of ancestors ---- *)

(** One step of the merge: the first head that is in no tail. *)
Fixpoint good_head (all ls : list (list nat)) : option nat :=
  match ls with
  | [] => None
  | [] :: r => good_head all r
  | (h :: _) :: r => if existsb (fun l => mem h (tl l)) all then good_head all r else Some h
  end.

Definition drop_head (h : nat) (l : list nat) : list nat :=
  match l with x :: r => if dec x h then r else l | [] => [] end.

Definition all_empty (ls : list (list nat)) : bool :=
  forallb (fun l => match l with [] => true | _ => false end) ls.

(** C3: [fuel] is the number of entries left, so that it never runs out. *)
Fixpoint merge (fuel : nat) (ls : list (list nat)) : option (list nat) :=
  if all_empty ls then Some []
  else match fuel with
       | 0 => None
       | S fuel => match good_head ls ls with
                   | None => None                    (* TypeError: no consistent order *)
                   | Some h => option_map (cons h) (merge fuel (map (drop_head h) ls))
                   end
       end.

Definition class_of (w : world) (k : nat) : option class := nth_error (w_classes w) k.
Definition mro_of (w : world) (k : nat) : list nat :=
  match class_of w k with Some c => k_mro c | None => [] end.

Definition linearize (w : world) (self : nat) (bases : list nat) : option (list nat) :=
  let ls := map (mro_of w) bases ++ [bases] in
  option_map (cons self) (merge (List.length (concat ls)) ls).

(** The first class in a list of classes that has the attribute. *)
Fixpoint lookup (w : world) (mro : list nat) (n : string) : option value :=
  match mro with
  | [] => None
  | k :: r => match class_of w k with
              | Some c => match get n (k_fields c) with Some v => Some v | None => lookup w r n end
              | None => lookup w r n
              end
  end.

(** Python: [getattr(cls, n)] for an attribute of the class statement. *)
Definition attribute (w : world) (k : nat) (n : string) : option value := lookup w (mro_of w k) n.

(** The same for the two attributes that the metaclass may leave to be inherited. *)
Fixpoint lookup_type (own : class -> option nat) (w : world) (mro : list nat) : option nat :=
  match mro with
  | [] => None
  | k :: r => match class_of w k with
              | Some c => match own c with Some t => Some t | None => lookup_type own w r end
              | None => lookup_type own w r
              end
  end.
Definition settings_type (w : world) (k : nat) : option nat := lookup_type k_settings w (mro_of w k).
Definition state_type (w : world) (k : nat) : option nat := lookup_type k_state w (mro_of w k).

(* ---- the metaclasses ---- *)

(** component.py:41-45, unit.py:42-45, 53-56, collection.py:28-32: what the bases have registered,
    a later base replacing an earlier one.  A base without the registry ([hasattr]) adds nothing. *)
Definition inherit (w : world) (reg : class -> list (string * nat)) (bases : list nat) : list (string * nat) :=
  fold_left (fun d b => match class_of w b with
                        | Some c => fold_left (fun d e => put (fst e) (snd e) d) (reg c) d
                        | None => d
                        end) bases [].

(** component.py:51-55, unit.py:58-71, collection.py:34-37: what the class itself declares. *)
Definition declare (pick : value -> option nat) (fields : list (string * value)) (d : list (string * nat)) :
  list (string * nat) :=
  fold_left (fun d f => match pick (snd f) with Some x => put (fst f) x d | None => d end) fields d.

(** component.py:52: [isinstance(field_value, Stream)], for topics too. *)
Definition pick_stream (v : value) : option nat :=
  match v with VStream s => Some s | VTopic s => Some s | _ => None end.
(** unit.py:65-71: a function is a task, or else a main function, or else a thread. *)
Definition pick_task (v : value) : option nat :=
  match v with VFun f d => if d_task d then Some f else None | _ => None end.
Definition pick_main (v : value) : option nat :=
  match v with VFun f d => if d_task d then None else if d_main d then Some f else None | _ => None end.
Definition pick_thread (v : value) : option nat :=
  match v with
  | VFun f d => if d_task d then None else if d_main d then None else if d_thread d then Some f else None
  | _ => None
  end.
(** collection.py:35: [isinstance(field_value, Component)]. *)
Definition pick_component (v : value) : option nat :=
  match v with VComponent c => Some c | _ => None end.

(** component.py:57-58, 69-70: [issubclass] of something that is not a class is a TypeError. *)
Definition no_type (n : string) (v : value) : bool :=
  match v with VType _ => false | _ => eqd n "SETTINGS"%string || eqd n "STATE"%string end.

(** component.py:52-54, collection.py:35-36: each stream (component) declared is given its name;
    [false]: an AssertionError, because it has one already, or an attribute for which [bad]. *)
Fixpoint name_all (pick : value -> option nat) (bad : string -> value -> bool) (fields : list (string * value))
  (names : list (nat * string)) : list (nat * string) * bool :=
  match fields with
  | [] => (names, true)
  | (n, v) :: r =>
      match pick v with
      | None => if bad n v then (names, false) else name_all pick bad r names
      | Some s => match get s names with
                  | Some _ => (names, false)
                  | None => name_all pick bad r (put s n names)
                  end
      end
  end.

(** unit.py:46-52: the main function of the bases; [None]: an exception, because two have one.
    A base that is a unit class has the attribute, even if it is None; the last such base decides. *)
Fixpoint base_main (w : world) (bases : list nat) (main : option nat) : option (option nat) :=
  match bases with
  | [] => Some main
  | b :: r =>
      match class_of w b with
      | Some c =>
          match k_meta c with
          | MUnit =>
              match main, k_main c with
              | Some _, Some _ => None
              | _, m => base_main w r m
              end
          | _ => base_main w r main
          end
      | None => base_main w r main
      end
  end.

(** unit.py:66-69: the last main function declared. *)
Definition own_main (fields : list (string * value)) (main : option nat) : option nat :=
  fold_left (fun m f => match pick_main (snd f) with Some x => Some x | None => m end) fields main.

(** unit.py:59-64: a topic on a unit is a TypeError. *)
Definition has_topic (fields : list (string * value)) : bool :=
  existsb (fun f => match snd f with VTopic _ => true | _ => false end) fields.

(** component.py:26-37: an annotation counts as an assignment (at the place of the assignment, if
    there is one). *)
Definition with_annotations (s : stmt) : list (string * value) :=
  let f := st_fields s in
  let f := match st_ann_settings s with Some t => put "SETTINGS"%string (VType t) f | None => f end in
  match st_ann_state s with Some t => put "STATE"%string (VType t) f | None => f end.

(** component.py:57-80: the type declared under the name. *)
Definition own_type (n : string) (fields : list (string * value)) : option nat :=
  match get n fields with Some (VType t) => Some t | _ => None end.

(** component.py:82-95: only where no ancestor has a type is one set; that is so for Component
    only, which gets [dflt] (the class Settings, or State).  (The branches for one base type, and
    for more than one, are then never taken.) *)
Definition final_type (own : class -> option nat) (w : world) (ancestors : list nat) (dflt : nat) (t : option nat) :
  option nat :=
  match t with
  | Some t => Some t
  | None => match lookup_type own w ancestors with Some _ => None | None => Some dflt end
  end.

(** The classes ez.Settings and ez.State. *)
Definition ez_settings : nat := 0.
Definition ez_state : nat := 1.

(** The class statement: the new world, and the number of the class unless it raised. *)
Definition define (w : world) (s : stmt) : world * option nat :=
  let self := List.length (w_classes w) in
  match linearize w self (st_bases s) with
  | None => (w, None)
  | Some mro =>
      let plain := Class s mro [] None None [] None [] [] in
      let add c sn cn := (World (w_classes w ++ [c]) sn cn, Some self) in
      match st_meta s with
      | MPlain => add plain (w_streams w) (w_components w)
      | m =>
          let fields := with_annotations s in
          let (sn, ok) := name_all pick_stream no_type fields (w_streams w) in
          if negb ok then (World (w_classes w) sn (w_components w), None)
          else
            let streams := declare pick_stream fields (inherit w k_streams (st_bases s)) in
            let settings := final_type k_settings w (tl mro) ez_settings (own_type "SETTINGS" fields) in
            let state := final_type k_state w (tl mro) ez_state (own_type "STATE" fields) in
            let comp t mn th cs := Class s mro streams settings state t mn th cs in
            match m with
            | MUnit =>
                match base_main w (st_bases s) None with
                | None => (World (w_classes w) sn (w_components w), None)
                | Some bm =>
                    if has_topic fields then (World (w_classes w) sn (w_components w), None)
                    else add (comp (declare pick_task fields (inherit w k_tasks (st_bases s)))
                                   (own_main fields bm)
                                   (declare pick_thread fields (inherit w k_threads (st_bases s))) [])
                             sn (w_components w)
                end
            | MCollection =>
                let (cn, okc) := name_all pick_component (fun _ _ => false) fields (w_components w) in
                if negb okc then (World (w_classes w) sn cn, None)
                else add (comp [] None [] (declare pick_component fields (inherit w k_components (st_bases s)))) sn cn
            | _ => add (comp [] None [] []) sn (w_components w)
            end
      end
  end.

Definition empty_world : world := World [] [] [].
