(* Property C38: patching a settings field changes that field only. *)

From Coq Require Import String List Arith Bool Lia.
From Verif Require Import Dict SettingsModel SettingsSpec SettingsProofs.
Import ListNotations.

(** Whatever the path, and whether or not it succeeds, no object that existed
    before is changed. *)
Theorem C38_original_untouched :
  forall (h : heap) (settings : value) (path : string) (v : value) (h' : heap) (r : option value),
  replace_settings_field h settings path v = (h', r) ->
  forall i, i < length h -> nth_error h' i = nth_error h i.
Proof. exact untouched. Qed.
Print Assumptions C38_original_untouched.

(** A path through fields of ordinary objects succeeds; the result has the given
    value at that path and is equal to the original everywhere else.
    Missing from the full claim: dataclasses with a field that is not an argument
    of __init__, for which it is false (next theorem). *)
Theorem C38_only_that_field_partial :
  forall (h : heap) (settings v : value) (names : list string),
  well_founded_heap h -> below (length h) v ->
  names <> [] -> names <> [""%string] -> Forall dotless names -> field_path h settings names ->
  exists h' r, replace_settings_field h settings (String.concat "." names) v = (h', Some r) /\
    (forall q, node h' r (map SKey names ++ q) = node h v q) /\
    (forall q, ~ starts_with (map SKey names) q -> node h' r q = node h settings q).
Proof.
  intros h settings v names W B N1 N2 D F. rewrite (replace_apply h settings names v N1 N2 D).
  destruct (apply_good names v h settings N1 W B F) as [h' [r [E [_ [_ [_ K]]]]]]. exists h', r. auto.
Qed.
Print Assumptions C38_only_that_field_partial.

(** Setting one field of a dataclass resets a field declared with init=False to its
    default, here from 7 to 0. *)
Theorem C38_non_init_field_reset_refuted :
  exists (h : heap) (settings v : value) (h' : heap) (r : value),
    well_founded_heap h /\ below (length h) v /\
    node h settings [SKey "count"] = Some (LAtom 7) /\
    replace_settings_field h settings "gain" v = (h', Some r) /\
    node h' r [SKey "gain"] = node h v [] /\
    node h' r [SKey "count"] = Some (LAtom 0).
Proof.
  exists [OData [mkField "gain" true None; mkField "count" false (Some (VAtom 0))]
            [("gain"%string, VAtom 1); ("count"%string, VAtom 7)] []], (VRef 0), (VAtom 2).
  eexists _, _. split.
  { intros [|i] o E; [|destruct i; discriminate]. injection E as <-. repeat constructor. }
  split; [exact I|]. split; [reflexivity|]. split; [reflexivity|]. split; reflexivity.
Qed.
Print Assumptions C38_non_init_field_reset_refuted.

(** A path that does not exist is refused. *)
Theorem C38_missing_path_refused :
  forall (h : heap) (settings v : value) (names : list string),
  well_founded_heap h -> below (length h) settings ->
  names <> [] -> Forall dotless names ->
  node h settings (map SKey names) = None ->
  snd (replace_settings_field h settings (String.concat "." names) v) = None.
Proof.
  intros h settings v names W B N D Nd. destruct (list_eq_dec string_dec names [""%string]) as [->|N2].
  - reflexivity.
  - rewrite replace_apply by assumption. now apply apply_missing.
Qed.
Print Assumptions C38_missing_path_refused.

(** The empty path is refused. *)
Theorem C38_empty_path_refused : forall (h : heap) (settings v : value),
  replace_settings_field h settings "" v = (h, None).
Proof. reflexivity. Qed.

(** So is a name that a dataclass has (a method, a property) but not as a field. *)
Theorem C38_non_field_refused :
  forall (h : heap) (settings v : value) (names : list string) (n : string) (i : nat) fs a cls,
  walk h settings names = Some (VRef i) -> nth_error h i = Some (OData fs a cls) -> ~ In n (map f_name fs) ->
  Forall dotless (names ++ [n]) ->
  snd (replace_settings_field h settings (String.concat "." (names ++ [n])) v) = None.
Proof.
  intros h settings v names n i fs a cls Wk E N D.
  destruct (list_eq_dec string_dec (names ++ [n]) [""%string]) as [Eq|N2].
  - rewrite Eq. reflexivity.
  - rewrite replace_apply; [|destruct names; discriminate|assumption|assumption].
    now apply (apply_not_a_field n v names h settings i fs a cls).
Qed.
Print Assumptions C38_non_field_refused.

Local Open Scope string_scope.
Local Open Scope nat_scope.
Local Open Scope list_scope.

(** Settings: a dataclass holding a mapping of plain objects and a list. *)
Definition demo_heap : heap :=
  [ OSeq [VAtom 10; VAtom 11];                                        (* 0 *)
    OPlain [("taps", VRef 0); ("order", VAtom 4)] [];                 (* 1 *)
    OMap [("low", VRef 1); ("high", VRef 1)];                         (* 2 *)
    OData [mkField "bank" true None; mkField "gain" true (Some (VAtom 1))]
          [("bank", VRef 2); ("gain", VAtom 3)] [("describe", VAtom 99)] ].  (* 3 *)

Example C38_case :
  well_founded_heap demo_heap /\ field_path demo_heap (VRef 3) ["bank"; "low"; "order"] /\
  (let (h', r) := replace_settings_field demo_heap (VRef 3) "bank.low.order" (VAtom 8) in
   exists v, r = Some v /\
     node h' v [SKey "bank"; SKey "low"; SKey "order"] = Some (LAtom 8) /\
     node h' v [SKey "bank"; SKey "high"; SKey "order"] = Some (LAtom 4) /\
     node h' v [SKey "bank"; SKey "low"; SKey "taps"; SIdx 1] = Some (LAtom 11) /\
     node h' (VRef 3) [SKey "bank"; SKey "low"; SKey "order"] = Some (LAtom 4)) /\
  snd (replace_settings_field demo_heap (VRef 3) "bank.mid.order" (VAtom 8)) = None /\
  snd (replace_settings_field demo_heap (VRef 3) "describe" (VAtom 8)) = None.
Proof.
  split.
  { intros i o E. do 4 (destruct i as [|i]; [injection E as <-; repeat constructor; cbn; lia|]).
    destruct i; discriminate. }
  split.
  { exists 3, (nth 3 demo_heap (OSeq [])), (VRef 2). split; [reflexivity|]. split; [reflexivity|]. split.
    { cbn. split; [reflexivity|]. split; [|repeat constructor]. repeat constructor; cbn; intuition discriminate. }
    split; [reflexivity|]. exists 2, (nth 2 demo_heap (OSeq [])), (VRef 1). split; [reflexivity|]. split; [reflexivity|].
    split; [exact I|]. split; [reflexivity|]. exists 1, (nth 1 demo_heap (OSeq [])), (VAtom 4).
    split; [reflexivity|]. split; [reflexivity|]. split; [exact I|]. split; [reflexivity|exact I]. }
  split; [eexists; split; [reflexivity|]; vm_compute; auto|]. split; reflexivity.
Qed.
