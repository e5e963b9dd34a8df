(* Model of how messages are written to a log and read back:
     messagecodec.py:47-80     type_str, import_type,
     messagecodec.py:83-119    MessageEncoder.default,
     messagecodec.py:136-180   _object_hook, MessageDecoder,
     messagecodec.py:186-209   message_log,
     messagelogger.py:15-24    log_object.
   The text is that of JsonModel.v.

   None is an exception.  Simplifications: values are trees (a circular reference raises, as does
   nesting beyond Python's recursion limit); subclasses of str, int, float, list, tuple and dict are
   their base class, as they are for the encoder; a dataclass has the generated __init__ (no
   __post_init__, no InitVar); numpy is installed.  What base64 and the buffers of numpy, pickle, and
   the importing of a name do are parameters. *)

From Coq Require Import String List NArith ZArith Bool.
From Verif Require Import CodecModel AddressModel Dict JsonModel.
Import ListNotations.
Open Scope list_scope.

#[global] Instance dec_pystr : Dec pystr := dec_list.

(** A key of a dict. *)
Inductive key :=
| KStr (s : pystr) | KInt (z : Z) | KFloat (f : pyfloat) | KBool (b : bool) | KNone
| KOther.                                 (* a tuple, say: TypeError *)

Section Values.
Variables C A O : Type.                   (* dataclasses, arrays, other objects *)

Inductive value :=
| VNone
| VBool (b : bool)
| VInt (z : Z)
| VFloat (f : pyfloat)
| VStr (s : pystr)
| VList (l : list value)
| VTuple (l : list value)
| VDict (d : list (key * value))
| VData (c : C) (attrs : list (pystr * value))
| VArray (a : A)
| VOther (o : O).

Record field := Field { f_name : pystr; f_init : bool; f_default : option value }.
End Values.
Arguments VNone {C A O}. Arguments VBool {C A O}. Arguments VInt {C A O}. Arguments VFloat {C A O}. Arguments VStr {C A O}.
Arguments VList {C A O}. Arguments VTuple {C A O}. Arguments VDict {C A O}. Arguments VData {C A O}. Arguments VArray {C A O}.
Arguments VOther {C A O}. Arguments Field {C A O}. Arguments f_name {C A O}. Arguments f_init {C A O}. Arguments f_default {C A O}.

Definition TYPE : pystr := u "_type".
Definition PICKLE_TYPE : pystr := u "_pickle".
Definition PICKLE_DATA : pystr := u "data".
Definition NDARRAY_TYPE : pystr := u "_ndarray".
Definition NDARRAY_DTYPE : pystr := u "dtype".
Definition NDARRAY_SHAPE : pystr := u "shape".
Definition NDARRAY_DATA : pystr := u "data".

Fixpoint all_some {X} (l : list (option X)) : option (list X) :=
  match l with
  | [] => Some []
  | Some x :: r => option_map (cons x) (all_some r)
  | None :: _ => None
  end.

(** dict(pairs): a later pair with the same key replaces the value. *)
Definition dict_of {X} (l : list (pystr * X)) : list (pystr * X) :=
  fold_left (fun d p => put (fst p) (snd p) d) l [].

Section Model.
Context {C A O : Type}.
Notation value := (value C A O).
Notation field := (field C A O).
Variable fields : C -> list field.                     (* dataclasses.fields *)
Variable type_str : C -> pystr.                        (* 47-59 *)
Variable import_type : pystr -> option C.              (* 62-80, when it is a dataclass *)
Variable call_other : pystr -> list (pystr * value) -> option value.
                                                       (* cls(obj as keywords), when it is another type, or no type *)
Variable is_log_start : C -> bool.
Variable dtype : A -> pystr.                           (* str(o.dtype) *)
Variable shape : A -> list Z.
Variable buffer : A -> option pystr.                   (* base64 of the buffer, 98-99; some arrays have none *)
Variable from_buffer : pystr -> value -> value -> option A.   (* 161-162: data, dtype, shape *)
Variable pickled : O -> option pystr.                  (* base64 of pickle.dumps, 114 *)
Variable unpickled : pystr -> option value.            (* pickle.loads, 167-168 *)

(** json/encoder.py _iterencode_dict: the keys of a dict *)
Definition key_text (k : key) : option pystr :=
  match k with
  | KStr s => Some s
  | KInt z => Some (str_int z)
  | KFloat f => Some (float_text f)
  | KBool true => Some (u "true")
  | KBool false => Some (u "false")
  | KNone => Some (u "null")
  | KOther => None
  end.

(** 89-119, with the encoder's own treatment of basic types *)
Fixpoint encode (v : value) : option json :=
  match v with
  | VNone => Some JNull
  | VBool b => Some (JBool b)
  | VInt z => Some (JInt z)
  | VFloat f => Some (JFloat f)
  | VStr s => Some (JStr s)
  | VList l | VTuple l => option_map JArr (all_some (map encode l))
  | VDict d =>
      option_map JObj (all_some (map (fun p =>
        match key_text (fst p), encode (snd p) with Some k, Some j => Some (k, j) | _, _ => None end) d))
  | VData c attrs =>
      (* 90-94: fields and then the type, which replaces a field of that name *)
      let attrs := map (fun p => (fst p, encode (snd p))) attrs in
      option_map (fun l => JObj (put TYPE (JStr (type_str c)) l))
        (all_some (map (fun f => match get (f_name f) attrs with
                                 | Some (Some j) => Some (f_name f, j)
                                 | _ => None
                                 end) (fields c)))
  | VArray a =>
      match buffer a with
      | None => None
      | Some b => Some (JObj [(TYPE, JStr NDARRAY_TYPE); (NDARRAY_DTYPE, JStr (dtype a)); (NDARRAY_DATA, JStr b);
                              (NDARRAY_SHAPE, JArr (map JInt (shape a)))])
      end
  | VOther o =>
      match pickled o with
      | None => None
      | Some b => Some (JObj [(TYPE, JStr PICKLE_TYPE); (PICKLE_DATA, JStr b)])
      end
  end.

Definition dumps (v : value) : option pystr := option_map text (encode v).

(** calling a dataclass with keyword arguments, 176 *)
Definition construct (c : C) (kw : list (pystr * value)) : option value :=
  if forallb (fun p => existsb (fun f => eqd (f_name f) (fst p) && f_init f) (fields c)) kw then
    option_map (fun l => VData c (concat l))
      (all_some (map (fun f =>
         match (if f_init f then get (f_name f) kw else None), f_default f with
         | Some v, _ => Some [(f_name f, v)]
         | None, Some v => Some [(f_name f, v)]
         | None, None => if f_init f then None else Some []
         end) (fields c)))
  else None.

Definition plain_dict (d : list (pystr * value)) : value := VDict (map (fun p => (KStr (fst p), snd p)) d).

(** 136-180 *)
Definition object_hook (d : list (pystr * value)) : option value :=
  match get TYPE d with
  | None | Some VNone => Some (plain_dict d)
  | Some (VStr t) =>
      if eqd t NDARRAY_TYPE then
        match get NDARRAY_DATA d, get NDARRAY_SHAPE d, get NDARRAY_DTYPE d with
        | Some (VStr b), Some sh, Some dt =>
            match sh, dt with
            | VNone, _ | _, VNone => Some (plain_dict d)
            | _, _ => option_map VArray (from_buffer b dt sh)
            end
        | _, _, _ => Some (plain_dict d)
        end
      else if eqd t PICKLE_TYPE then
        match get PICKLE_DATA d with
        | Some (VStr b) => unpickled b
        | _ => Some (plain_dict d)
        end
      else
        match import_type t with
        | Some c => construct c (del TYPE d)
        | None => call_other t (del TYPE d)
        end
  | Some _ => None                       (* typestr.split raises AttributeError *)
  end.

(** The decoder applies the hook to each object, the inner ones first. *)
Fixpoint decode (j : json) : option value :=
  match j with
  | JNull => Some VNone
  | JBool b => Some (VBool b)
  | JInt z => Some (VInt z)
  | JFloat f => Some (VFloat f)
  | JStr s => Some (VStr s)
  | JArr l => option_map VList (all_some (map decode l))
  | JObj l =>
      match all_some (map (fun p => option_map (pair (fst p)) (decode (snd p))) l) with
      | Some l => object_hook (dict_of l)
      | None => None
      end
  end.

Definition read (line : pystr) : option value :=
  match loads line with Some j => decode j | None => None end.

(** messagelogger.py:15-24 *)
Definition log_object (ts : pyfloat) (m : value) : option pystr :=
  dumps (VDict [(KStr (u "ts"), VFloat ts); (KStr (u "obj"), m)]).

(** obj["obj"] of a line *)
Definition entry (line : pystr) : option (value * value) :=
  match read line with
  | Some (VDict d) =>
      match find (fun p => match fst p with KStr s => eqd s (u "obj") | _ => false end) d with
      | Some (_, m) => Some (VDict d, m)
      | None => None
      end
  | _ => None
  end.

(** 186-209: what the generator yields, and whether it ends without an exception *)
Fixpoint yields (return_object : bool) (lines : list pystr) : list value * bool :=
  match lines with
  | [] => ([], true)
  | l :: r =>
      match entry l with
      | None => ([], false)
      | Some (whole, m) =>
          let (ys, ok) := yields return_object r in
          match m with
          | VData c _ => if is_log_start c then (ys, ok) else ((if return_object then m else whole) :: ys, ok)
          | _ => ((if return_object then m else whole) :: ys, ok)
          end
      end
  end.
Definition message_log (return_object : bool) (contents : pystr) : list value * bool :=
  yields return_object (file_lines contents).

(** messagelogger.py:100-101, 135-139: what is written to a file for these messages. *)
Fixpoint written (ms : list (pyfloat * value)) : option pystr :=
  match ms with
  | [] => Some []
  | (ts, m) :: r =>
      match log_object ts m, written r with
      | Some l, Some t => Some (l ++ [10%N] ++ t)
      | _, _ => None
      end
  end.

End Model.
