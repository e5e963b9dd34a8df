(* Property C39: structured settings values are plain data. *)

From Coq Require Import String List Arith.
From Verif Require Import Dict SanitizeModel SanitizeSpec SanitizeProofs.
Import ListNotations.

(** [str_of] is Python's [str] on values that are not strings. *)

Theorem C39_sanitized_is_plain : forall (str_of : pv -> string) (v : pv), plain (sanitize str_of v).
Proof. intros. now apply san_plain. Qed.
Print Assumptions C39_sanitized_is_plain.

Theorem C39_plain_is_unchanged : forall (str_of : pv -> string) (v : pv), plain v -> sanitize str_of v = v.
Proof. intros. now apply san_id. Qed.
Print Assumptions C39_plain_is_unchanged.

Theorem C39_sanitizing_twice : forall (str_of : pv -> string) (v : pv),
  sanitize str_of (sanitize str_of v) = sanitize str_of v.
Proof. intros. apply C39_plain_is_unchanged, C39_sanitized_is_plain. Qed.
Print Assumptions C39_sanitizing_twice.

(** The structured value of any settings object is absent or a plain dict, and
    its representation is a plain dict or a string. *)
Theorem C39_structured_is_plain_dict : forall (str_of : pv -> string) (v d : pv),
  settings_structured_value str_of v = Some d -> plain d /\ is_dict d.
Proof. exact structured_plain. Qed.
Print Assumptions C39_structured_is_plain_dict.

Theorem C39_representation : forall (str_of repr_of : pv -> string) (v : pv),
  let r := settings_repr_value str_of repr_of v in plain r /\ (is_dict r \/ exists s, r = PStr s).
Proof.
  intros. unfold r, settings_repr_value. destruct (settings_structured_value str_of v) eqn:E.
  - apply structured_plain in E as [P D]. auto.
  - split; [constructor|eauto].
Qed.
Print Assumptions C39_representation.

(** The structured value of a dataclass has its fields, in order, each sanitised on its own. *)
Theorem C39_fields : forall (str_of : pv -> string) (repr : string) (fs : list (string * pv)) (d : pv),
  settings_structured_value str_of (PData repr fs) = Some d -> NoDup (map fst fs) ->
  d = PDict true (map (fun f => (PStr (fst f), sanitize str_of (snd f))) fs).
Proof. exact structured_data. Qed.
Print Assumptions C39_fields.

Local Open Scope string_scope.
Local Open Scope nat_scope.
Local Open Scope list_scope.

(** A dataclass with an enum, a dict keyed by numbers (two keys have the same str),
    a tuple and a nested dataclass; and one that asdict cannot copy. *)
Definition demo_str (v : pv) : string := match v with PNum 1 => "1" | PNum _ => "2" | _ => "?" end.
Definition demo_value : pv :=
  PData "S(...)"
    [("mode", PEnum (PStr "fast"));
     ("table", PDict true [(PNum 1, PEnum (PNum 7)); (PStr "1", PNone); (PNum 2, PSeq KTuple [PNum 3; PObj "<f>" true None None None])]);
     ("sub", PData "T(5)" [("x", PNum 5)])].

Example C39_case :
  settings_structured_value demo_str demo_value =
    Some (PDict true [(PStr "mode", PStr "fast");
                      (PStr "table", PDict true [(PStr "1", PNone); (PStr "2", PSeq KList [PNum 3; PStr "<f>"])]);
                      (PStr "sub", PDict true [(PStr "x", PNum 5)])]) /\
  settings_structured_value demo_str (PData "U" [("lock", PObj "<lock>" false None None None)]) = None /\
  sanitize demo_str (PSeq KSet [PData "U" [("lock", PObj "<lock>" false None None None)]]) = PSeq KList [PStr "U"].
Proof. vm_compute. auto. Qed.
