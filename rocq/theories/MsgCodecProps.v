(* C69: what is logged can be read back. *)

From Coq Require Import String List NArith ZArith Arith Bool Lia.
From Verif Require Import CodecModel AddressModel AddressProps Dict JsonModel JsonSpec JsonProofs MsgCodecModel MsgCodecSpec MsgCodecProofs.
Import ListNotations.
Open Scope list_scope.

Section C69.
Context {C A O : Type}.
Notation value := (value C A O).
Variable fields : C -> list (field C A O).
Variable type_str : C -> pystr.
Variable import_type : pystr -> option C.
Variable call_other : pystr -> list (pystr * value) -> option value.
Variable is_log_start : C -> bool.
Variable dtype : A -> pystr.
Variable shape : A -> list Z.
Variable buffer : A -> option pystr.
Variable from_buffer : pystr -> value -> value -> option A.
Variable pickled : O -> option pystr.
Variable unpickled : pystr -> option value.

Notation dumps := (dumps fields type_str dtype shape buffer pickled).
Notation read := (read fields import_type call_other from_buffer unpickled).
Notation log_object := (log_object fields type_str dtype shape buffer pickled).
Notation written := (written fields type_str dtype shape buffer pickled).
Notation yields := (yields fields import_type call_other is_log_start from_buffer unpickled).
Notation entry := (entry fields import_type call_other from_buffer unpickled).
Notation message_log := (message_log fields import_type call_other is_log_start from_buffer unpickled).
Notation loggable := (loggable fields type_str import_type dtype shape buffer from_buffer pickled unpickled).

(** A value that can be logged is written, and comes back: as a list where it has a tuple, and with
    strings for the keys of its dicts. *)
Theorem C69_values_read_back v : loggable v ->
  exists line, dumps v = Some line /\ read line = Some (read_back v).
Proof.
  intros L. destruct (value_comes_back fields type_str import_type call_other dtype shape buffer from_buffer pickled unpickled v L) as [j [E [G D]]].
  exists (text j). unfold MsgCodecModel.dumps, MsgCodecModel.read. rewrite E. split; [reflexivity|].
  pose proof (loads_text j [] G) as T. rewrite app_nil_r in T. rewrite T by (intros c []). exact D.
Qed.

Lemma exact_list (l : list value) : exact (VList l) <-> Forall exact l.
Proof.
  induction l as [|x r IH]; [split; [constructor|intros _; exact I]|]. split.
  - intros [Hx Hr]. constructor; [exact Hx|]. apply IH. exact Hr.
  - intros F. inversion F; subst. split; [assumption|]. apply IH. assumption.
Qed.

(** Without tuples, and with strings as keys, it is the same value. *)
Theorem C69_same_value (v : value) : exact v -> read_back v = v.
Proof.
  induction v as [|b|z|f|s|l IH|l IH|d IH|c a IH|a|o] using value_ind'; intros E; try reflexivity.
  - apply exact_list in E. cbn [read_back]. f_equal. rewrite Forall_forall in *.
    rewrite <- (map_id l) at 2. apply map_ext_in. intros x I. apply IH; auto.
  - destruct E.
  - destruct E as [N E]. cbn [read_back].
    assert (X : flat_map (fun p => match key_string (fst p) with Some k => [(k, read_back (snd p))] | None => [] end) d =
                map (fun p => (match fst p with KStr s => s | _ => [] end, snd p)) d /\
                map (fun p => (KStr (fst p), snd p)) (map (fun p => (match fst p with KStr s => s | _ => [] end, snd p)) d) = d).
    { clear N. induction d as [|[k x] d IHd]; [split; reflexivity|]. inversion IH; subst. destruct E as [[s ->] [Ex Er]].
      destruct (IHd ltac:(assumption) Er) as [X1 X2]. cbn [flat_map map key_string fst snd app] in *. rewrite X1, X2.
      split; [|reflexivity]. f_equal. f_equal. auto. }
    destruct X as [X1 X2]. rewrite X1, dict_of_nodup; [f_equal; exact X2|].
    rewrite <- X2 in N. rewrite map_map in N. cbn [fst] in N. unfold keys.
    clear - N. set (l := map _ d) in *. clearbody l. rewrite <- map_map with (f := fst) (g := KStr) in N.
    exact (NoDup_map_inv KStr _ N).
  - cbn [read_back]. f_equal. change ((fix all (l : list (pystr * value)) := match l with [] => True | (_, x) :: r => exact x /\ all r end) a) in E.
    induction a as [|[k x] a IHa]; [reflexivity|]. inversion IH; subst. destruct E as [Ex Er]. cbn [map fst snd]. f_equal; [f_equal; auto|]. apply IHa; assumption.
Qed.

(** What is written for a message is one line of printable ASCII, whatever its strings contain. *)
Theorem C69_one_line ts m line : good_float ts -> loggable m -> log_object ts m = Some line ->
  forall c, In c line -> (32 <= c <= 126)%N.
Proof.
  intros Gt L E.
  assert (L' : loggable (VDict [(KStr (u "ts"), VFloat ts); (KStr (u "obj"), m)])).
  { split; [exists (u "ts"); split; [reflexivity|split; [apply good_literal; reflexivity|discriminate]]|].
    split; [exact Gt|]. split; [exists (u "obj"); split; [reflexivity|split; [apply good_literal; reflexivity|discriminate]]|].
    split; [exact L|exact I]. }
  destruct (value_comes_back fields type_str import_type call_other dtype shape buffer from_buffer pickled unpickled _ L') as [j [Ej [G D]]].
  unfold MsgCodecModel.log_object, MsgCodecModel.dumps in E. rewrite Ej in E. injection E as <-. exact (text_printable j G).
Qed.

(** ** Log files *)

Lemma entry_of ts m : good_float ts -> loggable m ->
  exists l, log_object ts m = Some (text (JObj l)) /\ good_json (JObj l) /\
    forall w, (forall c, In c w -> is_ws c = true) ->
      entry (text (JObj l) ++ w) = Some (VDict [(KStr (u "ts"), VFloat ts); (KStr (u "obj"), read_back m)], read_back m).
Proof.
  intros Gt L.
  assert (L' : loggable (VDict [(KStr (u "ts"), VFloat ts); (KStr (u "obj"), m)])).
  { split; [exists (u "ts"); split; [reflexivity|split; [apply good_literal; reflexivity|discriminate]]|].
    split; [exact Gt|]. split; [exists (u "obj"); split; [reflexivity|split; [apply good_literal; reflexivity|discriminate]]|].
    split; [exact L|exact I]. }
  destruct (value_comes_back fields type_str import_type call_other dtype shape buffer from_buffer pickled unpickled _ L') as [j [Ej [G D]]].
  assert (exists l, j = JObj l) as [l ->].
  { cbn [MsgCodecModel.encode map all_some key_text fst snd option_map] in Ej.
    destruct (encode fields type_str dtype shape buffer pickled m); [|discriminate]. injection Ej as <-. eexists. reflexivity. }
  exists l. unfold MsgCodecModel.log_object, MsgCodecModel.dumps. rewrite Ej. split; [reflexivity|]. split; [exact G|].
  intros w W. unfold MsgCodecModel.entry, MsgCodecModel.read. rewrite (loads_text (JObj l) w G W), D. reflexivity.
Qed.

Definition is_start (m : value) : bool := match m with VData c _ => is_log_start c | _ => false end.

(** The messages of a log, without the entries that mark its start. *)
Definition messages (ms : list (pyfloat * value)) : list value :=
  map (fun p => read_back (snd p)) (filter (fun p => negb (is_start (snd p))) ms).
Definition entries (ms : list (pyfloat * value)) : list value :=
  map (fun p => VDict [(KStr (u "ts"), VFloat (fst p)); (KStr (u "obj"), read_back (snd p))]) (filter (fun p => negb (is_start (snd p))) ms).

Definition all_loggable (ms : list (pyfloat * value)) : Prop := Forall (fun p => good_float (fst p) /\ loggable (snd p)) ms.

Definition output (ro : bool) (ms : list (pyfloat * value)) : list value := if ro then messages ms else entries ms.

Lemma yields_cons ro line ls ts m : 
  entry line = Some (VDict [(KStr (u "ts"), VFloat ts); (KStr (u "obj"), read_back m)], read_back m) ->
  yields ro (line :: ls) = (output ro [(ts, m)] ++ fst (yields ro ls), snd (yields ro ls)).
Proof.
  intros E. cbn [MsgCodecModel.yields]. rewrite E. destruct (yields ro ls) as [ys ok]. cbn [fst snd].
  destruct m; try (destruct ro; reflexivity). cbn [read_back]. unfold output, messages, entries. cbn [filter is_start snd fst].
  destruct (is_log_start c); destruct ro; reflexivity.
Qed.

Lemma output_app ro a b : output ro (a ++ b) = output ro a ++ output ro b.
Proof. unfold output, messages, entries. rewrite filter_app. destruct ro; apply map_app. Qed.

Lemma lines_of ro ms rest : all_loggable ms -> exists t, written ms = Some t /\
  message_log ro (t ++ rest) = (output ro ms ++ fst (message_log ro rest), snd (message_log ro rest)).
Proof.
  induction 1 as [|[ts m] ms [Gt L] F [t [Et Y]]].
  - exists []. split; [reflexivity|]. cbn [app]. destruct ro; cbn; now destruct (message_log _ rest).
  - destruct (entry_of ts m Gt L) as [l [El [G R]]]. cbn [fst snd] in *. cbn [MsgCodecModel.written]. rewrite El, Et. eexists. split; [reflexivity|].
    unfold MsgCodecModel.message_log in *. rewrite <- !app_assoc. cbn [app]. rewrite file_lines_line by exact (text_printable _ G).
    rewrite (yields_cons ro _ _ ts m) by (apply R; intros c [<-|[]]; reflexivity).
    rewrite Y. cbn [fst snd]. change ((ts, m) :: ms) with ([(ts, m)] ++ ms). rewrite output_app, <- app_assoc. reflexivity.
Qed.

(** Reading a log gives the messages, in order, each once. *)
Theorem C69_log_reads_back ms : all_loggable ms ->
  exists t, written ms = Some t /\
    message_log true t = (messages ms, true) /\ message_log false t = (entries ms, true).
Proof.
  intros F. destruct (lines_of true ms [] F) as [t [E Y]]. exists t. split; [exact E|].
  destruct (lines_of false ms [] F) as [t' [E' Y']]. rewrite E in E'. injection E' as <-.
  rewrite app_nil_r in Y, Y'. cbn in Y, Y'. rewrite !app_nil_r in *. split; assumption.
Qed.

(** A log that was cut off, inside a line: all the messages before it are read, then an exception
    tells that the rest is missing; no wrong message is read. *)
Theorem C69_cut_off_log ms ts m line p q t : all_loggable ms -> good_float ts -> loggable m ->
  written ms = Some t -> log_object ts m = Some line -> line = p ++ q -> p <> [] -> q <> [] ->
  message_log true (t ++ p) = (messages ms, false).
Proof.
  intros F Gt L Et El -> NP NQ. destruct (lines_of true ms p F) as [t' [E Y]]. rewrite Et in E. injection E as <-. rewrite Y.
  destruct (entry_of ts m Gt L) as [l [El' [G _]]]. assert (El2 : p ++ q = text (JObj l)) by congruence. clear El'. rename El2 into El'.
  unfold MsgCodecModel.message_log. rewrite file_lines_last.
  - cbn [MsgCodecModel.yields]. unfold MsgCodecModel.entry, MsgCodecModel.read. rewrite (loads_cut_off l p q G (eq_sym El') NQ).
    cbn [fst snd]. rewrite app_nil_r. reflexivity.
  - exact NP.
  - intros c I. apply (text_printable _ G). rewrite <- El'. apply in_or_app. left. exact I.
Qed.

(** If only the end of the last line is missing, its message is read. *)
Theorem C69_missing_line_end ms ts m line t : all_loggable ms -> good_float ts -> loggable m ->
  written ms = Some t -> log_object ts m = Some line ->
  message_log true (t ++ line) = (messages (ms ++ [(ts, m)]), true).
Proof.
  intros F Gt L Et El. destruct (lines_of true ms line F) as [t' [E Y]]. rewrite Et in E. injection E as <-. rewrite Y.
  destruct (entry_of ts m Gt L) as [l [El' [G R]]]. assert (line = text (JObj l)) as -> by congruence.
  unfold MsgCodecModel.message_log. rewrite file_lines_last.
  - specialize (R [] (fun c I => match I with end)). rewrite app_nil_r in R. rewrite (yields_cons true _ _ ts m R). cbn [fst snd MsgCodecModel.yields].
    rewrite app_nil_r. change (messages (ms ++ [(ts, m)])) with (output true (ms ++ [(ts, m)])). rewrite output_app. reflexivity.
  - destruct (text_head _ G) as [c [r [E _]]]. rewrite E. discriminate.
  - exact (text_printable _ G).
Qed.

(** A dict with the key "_type" is written, but the log cannot be read beyond it. *)
Theorem C69_type_key_ends_reading_refuted ms ts ts' m : all_loggable [(ts, m)] -> all_loggable ms -> good_float ts' ->
  let bad := VDict [(KStr (u "_type"), VInt 5)] in
  exists t, written ((ts', bad) :: (ts, m) :: ms) = Some t /\ message_log true t = ([], false).
Proof.
  intros F1 F2 Gt bad.
  assert (F : all_loggable ((ts, m) :: ms)) by (inversion F1; constructor; assumption).
  destruct (lines_of true ((ts, m) :: ms) [] F) as [t [E _]]. remember ((ts, m) :: ms) as rest.
  set (l := [(u "ts", JFloat ts'); (u "obj", JObj [(u "_type", JInt 5)])]).
  assert (G : good_json (JObj l)).
  { apply good_obj. constructor; [split; [apply good_literal; reflexivity|exact Gt]|]. constructor; [|constructor].
    split; [apply good_literal; reflexivity|]. apply (proj2 (good_obj [(u "_type", JInt 5)])). constructor; [|constructor].
    split; [apply good_literal; reflexivity|exact I]. }
  exists (text (JObj l) ++ [10%N] ++ t). split.
  { cbn [MsgCodecModel.written]. rewrite E. reflexivity. }
  unfold MsgCodecModel.message_log. cbn [app]. rewrite file_lines_line by exact (text_printable _ G).
  cbn [MsgCodecModel.yields]. unfold MsgCodecModel.entry, MsgCodecModel.read.
  rewrite (loads_text (JObj l) [10%N] G) by (intros c [<-|[]]; reflexivity). reflexivity.
Qed.
End C69.

(** ** A concrete case *)

(** Three dataclasses: LogStart; P(x, n) whose n is not an argument of __init__; Q(x, y). *)
Definition demo_fields (c : nat) : list (field nat (list Z) pystr) :=
  match c with
  | 0 => []
  | 1 => [Field (u "x") true None; Field (u "n") false (Some (VInt 0))]
  | _ => [Field (u "x") true None; Field (u "y") true (Some (VInt 0))]
  end.
Definition demo_type (c : nat) : pystr :=
  match c with 0 => u "ezmsg.util.messagecodec:LogStart" | 1 => u "demo:P" | _ => u "demo:Q" end.
Definition demo_import (s : pystr) : option nat :=
  if eqd s (demo_type 0) then Some 0 else if eqd s (demo_type 1) then Some 1 else if eqd s (demo_type 2) then Some 2 else None.
Notation dvalue := (value nat (list Z) pystr).
(** Arrays of one dimension, the buffer being one character per element. *)
Definition demo_buffer (a : list Z) : option pystr := Some (map Z.to_N a).
Definition demo_from_buffer (b : pystr) (_ _ : dvalue) : option (list Z) := Some (map Z.of_N b).
Notation demo_written := (written demo_fields demo_type (fun _ => u "uint8") (fun a => [Z.of_nat (length a)]) demo_buffer (fun o => Some o)).
Notation demo_log := (message_log demo_fields demo_import (fun _ _ => None) (Nat.eqb 0) demo_from_buffer (fun s => Some (VOther s))).
Notation demo_loggable := (loggable demo_fields demo_type demo_import (fun _ => u "uint8") (fun a => [Z.of_nat (length a)]) demo_buffer
                             demo_from_buffer (fun o => Some o) (fun s => Some (VOther s))).

Definition one : pyfloat := Finite (u "1.5e-05").
Definition demo_message : dvalue :=
  VData 2 [(u "x", VList [VStr [10; 34; 92; 233; 128512]%N; VInt (-70); VFloat one; VTuple [VNone; VBool true]]);
           (u "y", VDict [(KInt 3, VArray [1; 2; 200]%Z); (KStr (u "k"), VOther (u "blob"))])].
Definition demo_back : dvalue :=
  VData 2 [(u "x", VList [VStr [10; 34; 92; 233; 128512]%N; VInt (-70); VFloat one; VList [VNone; VBool true]]);
           (u "y", VDict [(KStr (u "3"), VArray [1; 2; 200]%Z); (KStr (u "k"), VOther (u "blob"))])].

Lemma one_good : good_float one.
Proof.
  exists [], (u "1"), (u ".5"), (u "e-05"). split; [reflexivity|]. split; [left; reflexivity|].
  split; [right; split; [split; [discriminate|intros c [<-|[]]; cbn; lia]|discriminate]|].
  split; [right; exists (u "5"); split; [reflexivity|split; [discriminate|intros c [<-|[]]; cbn; lia]]|].
  split; [right; exists (u "-"), (u "05"); split; [reflexivity|split; [auto|split; [discriminate|intros c [<-|[<-|[]]]; cbn; lia]]]|discriminate].
Qed.

Lemma good_small s : (forall c, In c s -> (c < 55296)%N \/ (57344 <= c <= 1114111)%N) -> good_string s.
Proof.
  intros H. split; [intros c I; specialize (H c I); lia|]. induction s as [|c r IH]; [exact I|]. destruct r as [|d r]; [exact I|].
  split; [intros [K _]; specialize (H c (or_introl eq_refl)); lia|]. apply IH. intros x J. apply H. right. exact J.
Qed.

Example C69_case :
  demo_loggable demo_message /\ read_back demo_message = demo_back /\
  (exists t, demo_written [(one, VData 0 []); (one, demo_message); (one, VInt 7)] = Some t /\
             demo_log true t = ([demo_back; VInt 7], true) /\ demo_log true (firstn 100 t) = ([], false)).
Proof.
  assert (GS : forall s, forallb (fun c => (c <? 128)%N) (u s) = true -> good_string (u s)) by apply good_literal.
  split; [|split; [reflexivity|]].
  - split.
    { split; [reflexivity|]. split; [discriminate|]. split; [discriminate|]. split; [apply GS; reflexivity|].
      split; [repeat constructor; cbn; intuition discriminate|]. split; [cbn; intuition discriminate|].
      intros f [<-|[<-|[]]]; split; try reflexivity; apply GS; reflexivity. }
    split; [reflexivity|]. split.
    { split; [apply good_small; intros c I; repeat destruct I as [<-|I]; try destruct I; lia|].
      split; [exact I|]. split; [exact one_good|]. split; [|exact I]. split; [exact I|]. split; exact I. }
    split; [|exact I]. split; [exists (u "3"); split; [reflexivity|split; [apply GS; reflexivity|discriminate]]|]. split.
    { exists [1; 2; 200]%N. split; [reflexivity|]. split; [apply good_small; intros c I; repeat destruct I as [<-|I]; try destruct I; lia|].
      split; [apply GS; reflexivity|reflexivity]. }
    split; [exists (u "k"); split; [reflexivity|split; [apply GS; reflexivity|discriminate]]|]. split; [|exact I].
    exists (u "blob"). split; [reflexivity|]. split; [apply GS; reflexivity|reflexivity].
  - eexists. split; [vm_compute; reflexivity|]. split; vm_compute; reflexivity.
Qed.

(** Findings: what does not come back. *)

(** A field that __init__ does not take: the message is written, and then the log cannot be read. *)
Theorem C69_non_init_field_ends_reading_refuted : exists t,
  demo_written [(one, VInt 1); (one, VData 1 [(u "x", VInt 5); (u "n", VInt 6)]); (one, VInt 2)] = Some t /\
  demo_log true t = ([VInt 1], false).
Proof. eexists. split; [vm_compute; reflexivity|]. vm_compute. reflexivity. Qed.

(** A tuple comes back as a list, and keys that are the same as text are merged. *)
Theorem C69_not_exact_refuted : exists t,
  demo_written [(one, VTuple [VInt 1]); (one, VDict [(KInt 1, VInt 1); (KStr (u "1"), VInt 2)])] = Some t /\
  demo_log true t = ([VList [VInt 1]; VDict [(KStr (u "1"), VInt 2)]], true).
Proof. eexists. split; [vm_compute; reflexivity|]. vm_compute. reflexivity. Qed.

(** Two lone surrogates that make a pair are joined. *)
Theorem C69_surrogates_are_joined_refuted : exists t,
  demo_written [(one, VStr [55357; 56832]%N)] = Some t /\ demo_log true t = ([VStr [128512]%N], true).
Proof. eexists. split; [vm_compute; reflexivity|]. vm_compute. reflexivity. Qed.

Print Assumptions C69_values_read_back.
Print Assumptions C69_same_value.
Print Assumptions C69_one_line.
Print Assumptions C69_log_reads_back.
Print Assumptions C69_cut_off_log.
Print Assumptions C69_missing_line_end.
Print Assumptions C69_type_key_ends_reading_refuted.
Print Assumptions C69_non_init_field_ends_reading_refuted.
Print Assumptions C69_not_exact_refuted.
Print Assumptions C69_surrogates_are_joined_refuted.
