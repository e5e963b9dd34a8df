(** What users know about defining classes, in terms of class statements and of Python's look-up. *)
From Coq Require Import String List Bool Arith.
From Verif Require Import Dict ClassModel.
Import ListNotations.

(** A metaclass may be that of a class whose base has the other (Python's rule: the metaclass of a
    class is derived from those of its bases). *)
Definition meta_le (base derived : meta) : Prop :=
  match base, derived with
  | MPlain, _ => True
  | MComponent, MPlain => False
  | MComponent, _ => True
  | MUnit, MUnit => True
  | MCollection, MCollection => True
  | _, _ => False
  end.

(** A class statement that Python accepts: a name is bound once (the body is a dict), the bases are
    classes defined before, none twice, and the metaclass fits. *)
Definition accepted (w : world) (s : stmt) : Prop :=
  NoDup (keys (st_fields s)) /\ NoDup (st_bases s) /\
  forall b, In b (st_bases s) -> exists c, class_of w b = Some c /\ meta_le (k_meta c) (st_meta s).

Definition is_unit (m : meta) : bool := match m with MUnit => true | _ => false end.
Definition is_component (m : meta) : bool := match m with MPlain => false | _ => true end.
Definition is_collection (m : meta) : bool := match m with MCollection => true | _ => false end.

(** Users do not name the metaclasses: a class has one because a base of it has (or it is Unit or
    Collection, both derived from Component). *)
Definition proper (w : world) (s : stmt) : Prop :=
  accepted w s /\
  (is_component (st_meta s) = true ->
   exists b c, In b (st_bases s) /\ class_of w b = Some c /\ is_component (k_meta c) = true).

(** First there is the class Component: class 0. *)
Definition start_world : world := fst (define empty_world (Stmt MComponent [] [] None None)).

(** The worlds that class statements lead to. *)
Inductive reachable : world -> Prop :=
| reach_start : reachable start_world
| reach_define w s : reachable w -> proper w s -> reachable (fst (define w s)).

(** What the value of an attribute is to ezmsg: a stream (streams and topics), a task, a thread
    function (which is neither a task nor a main function), a component. *)
Definition stream_in (v : value) : option nat :=
  match v with VStream s => Some s | VTopic s => Some s | _ => None end.
Definition task_in (v : value) : option nat :=
  match v with VFun f d => if d_task d then Some f else None | _ => None end.
Definition thread_in (v : value) : option nat :=
  match v with
  | VFun f d => if d_task d then None else if d_main d then None else if d_thread d then Some f else None
  | _ => None
  end.
Definition component_in (v : value) : option nat :=
  match v with VComponent c => Some c | _ => None end.

(** What a name stands for in the body of a class statement: an annotation of SETTINGS or STATE with
    a type counts as an assignment. *)
Definition stands_for (s : stmt) (n : string) : option value :=
  match (if string_dec n "SETTINGS" then st_ann_settings s else if string_dec n "STATE" then st_ann_state s else None) with
  | Some t => Some (VType t)
  | None => get n (st_fields s)
  end.

(** The objects of a kind in the body of a class statement are new: none has a name already, and
    none is there twice. *)
Definition all_new (s : stmt) (kind : value -> option nat) (names : list (nat * string)) : Prop :=
  (forall n v x, stands_for s n = Some v -> kind v = Some x -> get x names = None) /\
  (forall n1 v1 n2 v2 x, stands_for s n1 = Some v1 -> stands_for s n2 = Some v2 -> kind v1 = Some x -> kind v2 = Some x -> n1 = n2).

(** The class and its ancestors, nearest first. *)
Definition ancestor (w : world) (a k : nat) : Prop := In a (mro_of w k).

(** The statement of class [a] binds [n] to [v]. *)
Definition binds (w : world) (a : nat) (n : string) (v : value) : Prop :=
  exists c, class_of w a = Some c /\ get n (k_fields c) = Some v.

Definition meta_is (w : world) (ok : meta -> bool) (a : nat) : Prop :=
  exists c, class_of w a = Some c /\ ok (k_meta c) = true.

(** The bases of a class that have the attribute have the same value of it. *)
Definition bases_agree (w : world) (a : nat) (n : string) : Prop :=
  forall c b1 b2 v1 v2, class_of w a = Some c -> In b1 (k_bases c) -> In b2 (k_bases c) ->
    attribute w b1 n = Some v1 -> attribute w b2 n = Some v2 -> v1 = v2.

(** [n] is used in one way only, up the line from [k]: every class that binds it is of the kind
    [ok], binds it to something [pick]ed; and where a class inherits it, its bases agree. *)
Definition used_one_way (w : world) (k : nat) (n : string) (ok : meta -> bool) (pick : value -> option nat) : Prop :=
  forall a, ancestor w a k ->
    (forall v, binds w a n v -> meta_is w ok a /\ pick v <> None) /\
    ((forall v, ~ binds w a n v) -> bases_agree w a n).

Definition single_inheritance (w : world) (k : nat) : Prop :=
  forall a c, ancestor w a k -> class_of w a = Some c -> List.length (k_bases c) <= 1.

(** The value that Python finds under the name, if it is of the kind. *)
Definition found (w : world) (k : nat) (n : string) (pick : value -> option nat) : option nat :=
  match attribute w k n with Some v => pick v | None => None end.

(** The nearest ancestor for which [f] is defined. *)
Fixpoint nearest (f : class -> option nat) (w : world) (l : list nat) : option nat :=
  match l with
  | [] => None
  | a :: r => match class_of w a with
              | Some c => match f c with Some x => Some x | None => nearest f w r end
              | None => nearest f w r
              end
  end.

(** The main functions that a statement of a unit declares: the last one counts.  (An annotated
    SETTINGS or STATE is a type, whatever it is bound to.) *)
Definition main_functions (s : stmt) : list nat :=
  flat_map (fun f => match snd f with
                     | VFun x d => if d_main d && negb (d_task d) then [x] else []
                     | _ => []
                     end) (with_annotations s).
Definition declared_main (c : class) : option nat :=
  if is_unit (k_meta c) then last (map Some (main_functions (k_stmt c))) None else None.

(** The type that a statement of a component declares under SETTINGS or STATE: by annotation, or by
    assignment. *)
Definition declared_type (n : string) (ann : stmt -> option nat) (c : class) : option nat :=
  if is_component (k_meta c) then
    match ann (k_stmt c) with
    | Some t => Some t
    | None => match get n (k_fields c) with Some (VType t) => Some t | _ => None end
    end
  else None.
