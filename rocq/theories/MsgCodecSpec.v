(* What reading a log should give. *)

From Coq Require Import String List NArith ZArith Bool.
From Verif Require Import CodecModel AddressModel Dict JsonModel JsonSpec MsgCodecModel.
Import ListNotations.
Open Scope list_scope.

Section Spec.
Context {C A O : Type}.
Notation value := (value C A O).
Variable fields : C -> list (field C A O).
Variable type_str : C -> pystr.
Variable import_type : pystr -> option C.
Variable dtype : A -> pystr.
Variable shape : A -> list Z.
Variable buffer : A -> option pystr.
Variable from_buffer : pystr -> value -> value -> option A.
Variable pickled : O -> option pystr.
Variable unpickled : pystr -> option value.

(** The keys of a JSON object are strings: a string is its own key; True, False and None are written
    as in JSON, numbers in decimal; other keys cannot be written. *)
Definition key_string (k : key) : option pystr :=
  match k with
  | KStr s => Some s
  | KInt z => Some (str_int z)
  | KFloat f => Some (float_text f)
  | KBool true => Some (u "true")
  | KBool false => Some (u "false")
  | KNone => Some (u "null")
  | KOther => None
  end.

(** What comes back: a tuple comes back as a list, and a key of a dict as a string. *)
Fixpoint read_back (v : value) : value :=
  match v with
  | VList l | VTuple l => VList (map read_back l)
  | VDict d =>
      VDict (map (fun p => (KStr (fst p), snd p))
              (dict_of (flat_map (fun p => match key_string (fst p) with
                                           | Some k => [(k, read_back (snd p))]
                                           | None => []
                                           end) d)))
  | VData c attrs => VData c (map (fun p => (fst p, read_back (snd p))) attrs)
  | v => v
  end.

(** The type can be imported by its name, __init__ takes all its fields, and none is named "_type". *)
Definition restorable_class (c : C) : Prop :=
  import_type (type_str c) = Some c /\ type_str c <> u "_ndarray" /\ type_str c <> u "_pickle" /\ good_string (type_str c) /\
  NoDup (map f_name (fields c)) /\ ~ In (u "_type") (map f_name (fields c)) /\
  (forall f, In f (fields c) -> f_init f = true /\ good_string (f_name f)).

Definition restorable_array (a : A) : Prop :=
  exists b, buffer a = Some b /\ good_string b /\ good_string (dtype a) /\
    from_buffer b (VStr (dtype a)) (VList (map VInt (shape a))) = Some a.

Definition restorable_object (o : O) : Prop :=
  exists b, pickled o = Some b /\ good_string b /\ unpickled b = Some (VOther o).

(** Values the log can take: nothing in them is a dict with the key "_type", unless its value is None. *)
Fixpoint loggable (v : value) : Prop :=
  match v with
  | VNone | VBool _ | VInt _ => True
  | VFloat f => good_float f
  | VStr s => good_string s
  | VList l | VTuple l => (fix all l := match l with [] => True | x :: r => loggable x /\ all r end) l
  | VDict d =>
      (fix all (d : list (key * value)) := match d with
        | [] => True
        | (k, x) :: r =>
            (exists s, key_string k = Some s /\ good_string s /\ (s = u "_type" -> x = VNone)) /\ loggable x /\ all r
        end) d
  | VData c attrs =>
      restorable_class c /\ keys attrs = map f_name (fields c) /\
      (fix all (l : list (pystr * value)) := match l with [] => True | (_, x) :: r => loggable x /\ all r end) attrs
  | VArray a => restorable_array a
  | VOther o => restorable_object o
  end.

(** Values that come back as they are. *)
Fixpoint exact (v : value) : Prop :=
  match v with
  | VTuple _ => False
  | VList l => (fix all l := match l with [] => True | x :: r => exact x /\ all r end) l
  | VDict d =>
      NoDup (map fst d) /\
      (fix all (d : list (key * value)) := match d with
        | [] => True
        | (k, x) :: r => (exists s, k = KStr s) /\ exact x /\ all r
        end) d
  | VData c attrs =>
      (fix all (l : list (pystr * value)) := match l with [] => True | (_, x) :: r => exact x /\ all r end) attrs
  | _ => True
  end.
End Spec.
