(* C70: units made of generators publish what the generator yields.
   C71: units made by gen_to_unit. *)

From Coq Require Import List NArith ZArith Arith Bool Lia.
From Verif Require Import Dict CodecModel ArrayModel GenModel.
Import ListNotations.

(** ** Specification *)

Definition some_of {Y} (l : list (option Y)) : list Y := flat_map (fun y => match y with Some y => [y] | None => [] end) l.

(** What the code yields for values sent one after the other, until it ends. *)
Fixpoint answers {S X Y} (b : body S X Y) (s : S) (xs : list (option X)) : list (option Y) :=
  match xs with
  | [] => []
  | x :: xs => match resume b s x with Yields y s' => y :: answers b s' xs | _ => [] end
  end.

(** The values a generator answers to values sent; None if it ends or raises on the way. *)
Fixpoint replies {S X Y} (b : body S X Y) (g : gen S) (xs : list (option X)) : option (list (option Y)) :=
  match xs with
  | [] => Some []
  | x :: xs => match send b g x with (Value y, g') => option_map (cons y) (replies b g' xs) | _ => None end
  end.

(** All the values through the first generator, all its answers through the second, and so on. *)
Fixpoint one_after_the_other {S V} (gs : list (body S V V * gen S)) (xs : list (option V)) : option (list (option V)) :=
  match gs with
  | [] => Some xs
  | (b, g) :: gs => match replies b g xs with Some ys => one_after_the_other gs ys | None => None end
  end.

(** ** C70 *)

Lemma finished_publishes_nothing {S X Y} (b : body S X Y) xs : on_messages b Finished xs = ([], Finished).
Proof. induction xs as [|x xs IH]; [reflexivity|]. cbn. rewrite IH. reflexivity. Qed.

Lemma suspended_publishes {S X Y} (b : body S X Y) xs : forall s, fst (on_messages b (Suspended s) xs) = some_of (answers b s xs).
Proof.
  induction xs as [|x xs IH]; intros s; [reflexivity|]. cbn [on_messages answers]. unfold on_message. cbn [send].
  destruct (resume b s x) as [y s'| |]; cbn [after_outcome].
  - specialize (IH s'). destruct y as [y|], (on_messages b (Suspended s') xs) as [zs g]; cbn [fst] in *; rewrite IH; reflexivity.
  - rewrite finished_publishes_nothing. reflexivity.
  - rewrite finished_publishes_nothing. reflexivity.
Qed.

(** C70.  A unit made of a generator publishes, for the messages in order, what the generator yields
    for them, leaving out None. *)
Theorem C70_publishes_what_is_yielded {S X Y} (b : body S X Y) y0 s xs : begin b = Yields y0 s ->
  exists g, consumer b = Some g /\ fst (on_messages b g xs) = some_of (answers b s xs).
Proof.
  intros E. exists (Suspended s). split; [unfold consumer; cbn [send]; rewrite E; reflexivity|]. apply suspended_publishes.
Qed.
Print Assumptions C70_publishes_what_is_yielded.

(** C70.  In any state, at most one message is published for a message. *)
Theorem C70_at_most_one_per_message {S X Y} (b : body S X Y) g x : length (fst (on_message b g x)) <= 1.
Proof. unfold on_message. destruct (send b g x) as [[[y|]| |] g']; cbn; lia. Qed.
Print Assumptions C70_at_most_one_per_message.

(** C70 fails to go on after an error: one message the generator raises for ends the output for good,
    and nothing but a log entry tells so. *)
Theorem C70_one_error_silences_the_unit_refuted {S X Y} (b : body S X Y) s x xs :
  resume b s x = Throws -> on_messages b (Suspended s) (x :: xs) = ([], Finished).
Proof.
  intros E. cbn [on_messages]. unfold on_message. cbn [send]. rewrite E. cbn [after_outcome].
  rewrite finished_publishes_nothing. reflexivity.
Qed.
Print Assumptions C70_one_error_silences_the_unit_refuted.

Lemma pipe_first {S V} (b : body S V V) xs : forall g gs,
  pipe_all ((b, g) :: gs) xs = match replies b g xs with Some ys => pipe_all gs ys | None => None end.
Proof.
  induction xs as [|x xs IH]; intros g gs; [reflexivity|]. cbn [pipe_all replies pipe].
  destruct (send b g x) as [[y| |] g'] eqn:E; try reflexivity.
  destruct (pipe gs y) as [[z| |] gs'] eqn:P.
  - rewrite IH. destruct (replies b g' xs) as [ys|]; [|reflexivity]. cbn [option_map pipe_all]. rewrite P. reflexivity.
  - destruct (replies b g' xs) as [ys|]; [|reflexivity]. cbn [option_map pipe_all]. rewrite P. reflexivity.
  - destruct (replies b g' xs) as [ys|]; [|reflexivity]. cbn [option_map pipe_all]. rewrite P. reflexivity.
Qed.

(** C70.  Calling a composition on values one after the other is sending all of them through the
    first generator, its answers through the second, and so on. *)
Theorem C70_compose {S V} (gs : list (body S V V * gen S)) xs : pipe_all gs xs = one_after_the_other gs xs.
Proof.
  revert xs. induction gs as [|[b g] gs IH]; intros xs.
  - cbn [one_after_the_other]. induction xs as [|x xs IH]; [reflexivity|]. cbn [pipe_all pipe]. rewrite IH. reflexivity.
  - rewrite pipe_first. cbn [one_after_the_other]. destruct (replies b g xs); [apply IH|reflexivity].
Qed.
Print Assumptions C70_compose.

(** C70.  When a generator of a composition raises, those before it have moved on and those after it
    have not seen the value. *)
Theorem C70_compose_error {S V} (before after : list (body S V V * gen S)) b g x y moved r g' :
  pipe before x = (Value y, moved) -> send b g y = (r, g') -> (forall v, r <> Value v) ->
  pipe (before ++ (b, g) :: after) x = (r, moved ++ (b, g') :: after).
Proof.
  revert x moved. induction before as [|[b0 g0] before IH]; intros x moved P E N.
  - cbn in P. injection P as <- <-. cbn [app pipe]. rewrite E. destruct r as [v| |]; [destruct (N v eq_refl)|reflexivity|reflexivity].
  - cbn [app pipe] in *. destruct (send b0 g0 x) as [[v| |] g0']; [|discriminate|discriminate].
    destruct (pipe before v) as [r' gs'] eqn:Pb. injection P as -> <-. rewrite (IH v gs' Pb E N). reflexivity.
Qed.
Print Assumptions C70_compose_error.

Section C70.
Context {A D U V T K O : Type} `{Dec D} `{Dec K}.
Notation aa := (@aa A D U V T K).
Notation message := (@message A D U V T K O).

(** An array that could be constructed. *)
Definition valid (a : aa) : Prop := make (data a) (dims a) (axes a) (attrs a) (key a) = Some a.

(** The same array with another key. *)
Definition rekeyed (k : K) (a : aa) : aa := AA (data a) (dims a) (axes a) (attrs a) k.

Inductive event := Received (a : aa) | KeyGiven (k : K).
Definition happens (e : event) : sk_event := match e with Received a => Message (IsArray a : message) | KeyGiven k => NewKey k end.

Fixpoint expected (k : K) (es : list event) : list aa :=
  match es with
  | [] => []
  | Received a :: es => rekeyed k a :: expected k es
  | KeyGiven k :: es => expected k es
  end.

Lemma with_key_valid k a : valid a -> with_key k (IsArray a : message) = Some (IsArray (rekeyed k a)).
Proof.
  unfold valid, with_key, make. destruct (Nat.eqb _ _ && _); [|discriminate]. intros _. reflexivity.
Qed.

(** C70.  SetKey publishes every array it receives, in order, with the key of the settings it has at
    that time, and nothing else changed. *)
Theorem C70_set_key k es : (forall a, In (Received a) es -> valid a) ->
  sk_run (sk_construct k) (map happens es) = map IsArray (expected k es).
Proof.
  revert k. induction es as [|[a|k'] es IH]; intros k W; [reflexivity| |].
  - pose proof (with_key_valid k a (W a (or_introl eq_refl))) as E.
    assert (St : sk_step (sk_construct k) (happens (Received a)) = ([IsArray (rekeyed k a)], sk_construct k)).
    { unfold sk_step, happens, on_message, sk_construct. change (consumer (set_key k)) with (Some (Suspended (S := unit) tt)).
      cbn [sk_gen sk_key fst snd send]. unfold set_key at 1. cbn [resume]. rewrite E. reflexivity. }
    cbn [map sk_run expected]. rewrite St. cbn [app]. f_equal. exact (IH k (fun a I => W a (or_intror I))).
  - cbn [map happens sk_run sk_step expected app]. apply IH. intros a I. apply W. right. exact I.
Qed.

(** C70.  After anything but an array, SetKey publishes nothing until it is given settings. *)
Theorem C70_stray_message_stops_set_key_refuted k o (ms : list message) :
  sk_run (sk_construct k) (Message (Else o) :: map Message ms) = [].
Proof.
  cbn [sk_run sk_step]. unfold on_message. cbn -[sk_run]. induction ms as [|m ms IH]; [reflexivity|]. cbn [map sk_run sk_step]. exact IH.
Qed.

(** C70.  FilterOnKey passes on exactly the arrays with its key, unchanged. *)
Theorem C70_filter_on_key k a : valid a -> filter_on_key k (IsArray a : message) = Some (if eqd (key a) k then [IsArray a] else []).
Proof.
  intros W. unfold filter_on_key. destruct (eqd (key a) k); [|reflexivity]. rewrite with_key_valid by exact W. destruct a. reflexivity.
Qed.

(** C70.  Anything that is not an array is refused with an exception; it is neither passed on nor
    silently dropped. *)
Theorem C70_filter_refuses_what_has_no_key k o : filter_on_key k (Else o : message) = None.
Proof. reflexivity. Qed.
End C70.
Print Assumptions C70_set_key.
Print Assumptions C70_stray_message_stops_set_key_refuted.
Print Assumptions C70_filter_on_key.
Print Assumptions C70_filter_refuses_what_has_no_key.

(** A running sum that raises for 0. *)
Definition adder : body nat nat nat :=
  Body (Yields None 0) (fun s x => match x with Some (S n) => Yields (Some (s + S n)) (s + S n) | _ => Throws end).
(** Twice the value; None for 6. *)
Definition doubler : body nat nat nat :=
  Body (Yields None 0) (fun s x => match x with Some 6 => Yields None s | Some n => Yields (Some (2 * n)) s | None => Yields None s end).

Definition demo_array (k : nat) : @aa nat nat nat nat nat nat := AA (Arr [3] (fun i => hd 0 i)) [7] [] 0 k.

Example C70_case :
  consumer adder = Some (Suspended 0) /\ fst (on_messages adder (Suspended 0) [Some 1; Some 2; Some 3; Some 0; Some 5]) = [1; 3; 6] /\
  pipe_all [(adder, Suspended 0); (doubler, Suspended 0)] [Some 1; Some 2; Some 3] = Some [Some 2; Some 6; None].
Proof. vm_compute. auto. Qed.

Example C70_key_case :
  valid (demo_array 4) /\
  expected 1 [Received (demo_array 4); KeyGiven 2; Received (demo_array 5)] = [demo_array 1; demo_array 2] /\
  filter_on_key (O := nat) 4 (IsArray (demo_array 4)) = Some [IsArray (demo_array 4)] /\
  filter_on_key (O := nat) 4 (IsArray (demo_array 5)) = Some [].
Proof. repeat split. Qed.

(** ** C71 *)

Section C71.
Context {S Y : Type}.
Notation attributes := (list (pystr * pyval)).
Notation body := (body S attributes Y).
Notation gen := (gen S).
Variable func : attributes -> option (body * gen).
Variable msg_to_state : list (pystr * pystr).
Variable differs : pyval -> pyval -> bool.
Notation unit_state := (@unit_state S Y).
Notation handle := (handle func msg_to_state differs).
Notation handle_all := (handle_all func msg_to_state differs).

(** The message has all the tracked fields, with the values the unit knows. *)
Definition unchanged (st : unit_state) (msg : attributes) : Prop :=
  forall mf sf, In (mf, sf) msg_to_state ->
    exists old new, get mf msg = Some new /\ get sf (st_fields st) = Some old /\ differs old new = false.

Lemma check_unchanged st msg pairs : (forall mf sf, In (mf, sf) pairs ->
    exists old new, get mf msg = Some new /\ get sf (st_fields st) = Some old /\ differs old new = false) ->
  check_fields func differs pairs msg st = (st, true).
Proof.
  induction pairs as [|[mf sf] pairs IH]; intros U; [reflexivity|]. cbn [check_fields].
  destruct (U mf sf (or_introl eq_refl)) as [old [new [-> [-> ->]]]]. apply IH. intros m s I. apply U. right. exact I.
Qed.

(** What is published for messages whose fields do not change: everything the generator yields for
    them, None included. *)
Theorem C71_publishes_what_is_yielded st b s msgs : st_gen st = (b, Suspended s) -> Forall (unchanged st) msgs ->
  length (answers b s (map Some msgs)) = length msgs ->
  fst (handle_all st msgs) = map Some (answers b s (map Some msgs)).
Proof.
  revert st s. induction msgs as [|m msgs IH]; intros st s G F L; [reflexivity|]. inversion F as [|m' ms' U F']; subst.
  cbn [map answers] in L |- *. cbn [GenModel.handle_all]. unfold GenModel.handle. rewrite (check_unchanged st m msg_to_state U).
  rewrite G. cbn [fst snd send]. destruct (resume b s (Some m)) as [y s'| |] eqn:R; [|discriminate|discriminate].
  cbn [after_outcome]. cbn [length] in L. specialize (IH (UnitState (st_fields st) (b, Suspended s')) s' eq_refl F' ltac:(lia)).
  cbv beta iota. destruct (handle_all (UnitState (st_fields st) (b, Suspended s')) msgs) as [rs st']. cbn [fst] in *. rewrite IH. reflexivity.
Qed.

(** A message with a new value of a tracked field never makes a new generator: the message is lost to
    an exception, because a generator cannot be copied; the next messages with that value go to the
    old generator, whose parameters are the old ones. *)
Theorem C71_new_value_never_takes_effect_refuted st msg mf sf rest old new :
  msg_to_state = (mf, sf) :: rest ->
  get mf msg = Some new -> get sf (st_fields st) = Some old -> differs old new = true ->
  handle st msg = (None, UnitState (put sf new (st_fields st)) (st_gen st)).
Proof.
  intros E G1 G2 Df. unfold GenModel.handle. rewrite E. cbn [check_fields]. rewrite G1, G2, Df.
  assert (N : asdict_state (UnitState (put sf new (st_fields st)) (st_gen st)) = None).
  { unfold asdict_state, asdict. rewrite map_app. cbn [st_fields map fst snd as_dict option_map].
    generalize (map (fun p : pystr * pyval => option_map (pair (fst p)) (as_dict (snd p))) (put sf new (st_fields st))).
    intros l. induction l as [|[x|] l IH]; cbn [app all_of]; [reflexivity|rewrite IH; reflexivity|reflexivity]. }
  rewrite N. reflexivity.
Qed.

(** So the generator is, whatever comes, the one made at the start. *)
Theorem C71_generator_is_never_replaced st msgs : fst (st_gen (snd (handle_all st msgs))) = fst (st_gen st).
Proof.
  assert (NS : forall st, asdict_state (S := S) (Y := Y) st = None).
  { intros st0. unfold asdict_state, asdict. rewrite map_app. cbn [map fst snd as_dict option_map].
    generalize (map (fun p : pystr * pyval => option_map (pair (fst p)) (as_dict (snd p))) (st_fields st0)).
    intros l. induction l as [|[x|] l IH]; cbn [app all_of]; [reflexivity|rewrite IH; reflexivity|reflexivity]. }
  assert (CF : forall pairs msg st, st_gen (fst (check_fields func differs pairs msg st)) = st_gen st).
  { induction pairs as [|[mf sf] pairs IH]; intros msg st0; [reflexivity|]. cbn [check_fields].
    destruct (get mf msg) as [new|]; [|reflexivity]. destruct (get sf (st_fields st0)) as [old|]; [|reflexivity].
    destruct (differs old new); [|apply IH]. rewrite NS. reflexivity. }
  revert st. induction msgs as [|m msgs IH]; intros st; [reflexivity|]. cbn [GenModel.handle_all].
  assert (K : fst (st_gen (snd (handle st m))) = fst (st_gen st)).
  { unfold GenModel.handle. pose proof (CF msg_to_state m st) as C. destruct (check_fields func differs msg_to_state m st) as [st' []]; cbn [fst snd] in *.
    - destruct (send _ _ _) as [[]]; cbn; congruence.
    - congruence. }
  destruct (handle st m) as [r st']. cbn [snd] in K. specialize (IH st'). destruct (handle_all st' msgs) as [rs st'']. cbn [snd] in *. congruence.
Qed.

(** Of a function that is not a consumer every message is refused, and none ever processed. *)
Theorem C71_unprimed_generator_refuses_everything_refuted st b msgs : st_gen st = (b, Unstarted) ->
  fst (handle_all st msgs) = map (fun _ => None) msgs.
Proof.
  revert st. assert (NS : forall st, asdict_state (S := S) (Y := Y) st = None).
  { intros st0. unfold asdict_state, asdict. rewrite map_app. cbn [map fst snd as_dict option_map].
    generalize (map (fun p : pystr * pyval => option_map (pair (fst p)) (as_dict (snd p))) (st_fields st0)).
    intros l. induction l as [|[x|] l IH]; cbn [app all_of]; [reflexivity|rewrite IH; reflexivity|reflexivity]. }
  assert (CF : forall pairs msg st, st_gen (fst (check_fields func differs pairs msg st)) = st_gen st).
  { induction pairs as [|[mf sf] pairs IH]; intros msg st0; [reflexivity|]. cbn [check_fields].
    destruct (get mf msg) as [new|]; [|reflexivity]. destruct (get sf (st_fields st0)) as [old|]; [|reflexivity].
    destruct (differs old new); [|apply IH]. rewrite NS. reflexivity. }
  induction msgs as [|m msgs IH]; intros st G; [reflexivity|]. cbn [GenModel.handle_all map].
  assert (K : exists st', handle st m = (None, st') /\ st_gen st' = (b, Unstarted)).
  { unfold GenModel.handle. pose proof (CF msg_to_state m st) as C. destruct (check_fields func differs msg_to_state m st) as [st' []]; cbn [fst] in C.
    - rewrite C, G. cbn [fst snd send]. eexists. split; reflexivity.
    - exists st'. split; [reflexivity|congruence]. }
  destruct K as [st' [-> G']]. specialize (IH st' G'). destruct (handle_all st' msgs) as [rs st'']. cbn [fst] in *. rewrite IH. reflexivity.
Qed.

(** The function is called with the settings; but an instance of a dataclass arrives as a dict. *)
Definition plain_values (settings : attributes) : Prop := asdict settings = Some settings.

(** A value with every instance of a dataclass in it, at any depth, replaced by a dict. *)
Fixpoint flat (v : pyval) : pyval :=
  match v with
  | PAtom z => PAtom z
  | PList l => PList (map flat l)
  | PDict l | PData _ l => PDict (map (fun p => (fst p, flat (snd p))) l)
  | PGen => PGen
  end.

(** There is no generator in it, at any depth. *)
Inductive without_gen : pyval -> Prop :=
| wg_atom z : without_gen (PAtom z)
| wg_list l : (forall v, In v l -> without_gen v) -> without_gen (PList l)
| wg_dict l : (forall k v, In (k, v) l -> without_gen v) -> without_gen (PDict l)
| wg_data c l : (forall k v, In (k, v) l -> without_gen v) -> without_gen (PData c l).

Lemma as_dict_list (l : list pyval) : (forall v, In v l -> as_dict v = Some (flat v)) ->
  all_of (map as_dict l) = Some (map flat l).
Proof.
  induction l as [|v l IH]; intros H; [reflexivity|]. cbn [map all_of]. rewrite (H v (or_introl eq_refl)).
  rewrite IH; [reflexivity|]. intros w I. apply H. right. exact I.
Qed.

Lemma as_dict_fields (l : list (pystr * pyval)) : (forall k v, In (k, v) l -> as_dict v = Some (flat v)) ->
  all_of (map (fun p => option_map (pair (fst p)) (as_dict (snd p))) l) = Some (map (fun p => (fst p, flat (snd p))) l).
Proof.
  induction l as [|[k v] l IH]; intros H; [reflexivity|]. cbn [map all_of fst snd]. rewrite (H k v (or_introl eq_refl)).
  cbn [option_map]. rewrite IH; [reflexivity|]. intros k' w I. apply (H k'). right. exact I.
Qed.

Lemma as_dict_flat v : without_gen v -> as_dict v = Some (flat v).
Proof.
  induction 1 as [z|l _ IH|l _ IH|c l _ IH]; cbn [as_dict flat]; [reflexivity|..].
  - now rewrite as_dict_list.
  - now rewrite as_dict_fields.
  - now rewrite as_dict_fields.
Qed.

(** The state holds the settings as they are, the function gets them with dicts for dataclasses. *)
Theorem C71_called_with_the_settings_as_dicts settings : (forall k v, In (k, v) settings -> without_gen v) ->
  initialize func settings =
    option_map (UnitState settings) (func (map (fun p => (fst p, flat (snd p))) settings)).
Proof.
  intros W. unfold initialize, asdict. rewrite as_dict_fields; [reflexivity|].
  intros k v I. apply as_dict_flat, (W k v I).
Qed.

Theorem C71_called_with_the_settings settings : plain_values settings ->
  initialize func settings = option_map (UnitState settings) (func settings).
Proof. intros P. unfold initialize. rewrite P. reflexivity. Qed.
End C71.

(** C71 finding: a parameter that is itself a dataclass reaches the function as a dict. *)
Theorem C71_dataclass_parameter_arrives_as_dict_refuted :
  asdict [([97%N], PData 3 [([98%N], PAtom 5)])] = Some [([97%N], PDict [([98%N], PAtom 5)])].
Proof. reflexivity. Qed.

(** A unit that only publishes: it publishes the values the function yields, in order, None included,
    as long as there are any. *)
Fixpoint yielded {S X Y} (b : body S X Y) (o : outcome S Y) (n : nat) : list (option Y) :=
  match n, o with
  | Datatypes.S n, Yields y s => y :: yielded b (resume b s None) n
  | _, _ => []
  end.

Lemma source_yields {S X Y} (b : body S X Y) n : forall g o, (forall k, send b g None = k -> k = after_outcome o) ->
  fst (source b n g) = yielded b o n.
Proof.
  induction n as [|n IH]; intros g o E; [destruct o; reflexivity|]. cbn [source yielded]. rewrite (E _ eq_refl).
  destruct o as [y s| |]; cbn [after_outcome]; try reflexivity.
  specialize (IH (Suspended s) (resume b s None) (fun k H => eq_sym H)). destruct (source b n (Suspended s)) as [ys ok]. cbn [fst] in *. rewrite IH. reflexivity.
Qed.

Theorem C71_source_publishes_what_is_yielded {S X Y} (b : body S X Y) n : fst (source b n Unstarted) = yielded b (begin b) n.
Proof. apply source_yields. intros k <-. reflexivity. Qed.

(** It goes on for as long as the function yields, and stops when the function returns or raises. *)
Theorem C71_source_stops_with_the_function {S X Y} (b : body S X Y) n :
  snd (source b n Unstarted) = true <-> length (yielded b (begin b) n) = n.
Proof.
  assert (G : forall n g o, (forall k, send b g None = k -> k = after_outcome o) ->
            (snd (source b n g) = true <-> length (yielded b o n) = n)).
  { clear n. induction n as [|n IH]; intros g o E; [split; destruct o; reflexivity|].
    cbn [source yielded]. rewrite (E _ eq_refl).
    destruct o as [y s| |]; cbn [after_outcome]; try (split; discriminate).
    specialize (IH (Suspended s) (resume b s None) (fun k H => eq_sym H)).
    destruct (source b n (Suspended s)) as [ys ok]. cbn [snd length] in *. rewrite IH. lia. }
  apply G. intros k <-. reflexivity.
Qed.

(** Of a consumer the first value is lost. *)
Theorem C71_source_of_a_consumer_loses_a_value_refuted {S X Y} (b : body S X Y) y s n : begin b = Yields y s ->
  exists g, consumer b = Some g /\ y :: fst (source b n g) = yielded b (begin b) (Datatypes.S n).
Proof.
  intros E. exists (Suspended s). split; [unfold consumer; cbn [send]; rewrite E; reflexivity|].
  rewrite E. cbn [yielded]. f_equal. apply source_yields. intros k <-. reflexivity.
Qed.

(** A function with the parameter p, which adds p to the attribute x of each message. *)
Definition adds (kw : list (pystr * pyval)) : option (body unit (list (pystr * pyval)) Z * gen unit) :=
  match get [112%N] kw with
  | Some (PAtom p) =>
      Some (Body (Yields None tt)
             (fun _ m => match m with
                         | Some m => match get [120%N] m with Some (PAtom x) => Yields (Some (x + p)%Z) tt | _ => Throws end
                         | None => Throws
                         end), Suspended tt)
  | _ => None
  end.
Definition tracked : list (pystr * pystr) := [([112%N], [112%N])].
Definition atoms_differ (a b : pyval) : bool := match a, b with PAtom x, PAtom y => negb (Z.eqb x y) | _, _ => true end.
Definition msg (x p : Z) : list (pystr * pyval) := [([120%N], PAtom x); ([112%N], PAtom p)].

(** The third message, the second one with p = 20, is processed with p = 10. *)
Example C71_case :
  match initialize adds [([112%N], PAtom 10)] with
  | Some st =>
      plain_values [([112%N], PAtom 10%Z)] /\ unchanged tracked atoms_differ st (msg 1 10) /\
      fst (handle_all adds tracked atoms_differ st [msg 1 10; msg 2 20; msg 3 20]) = [Some (Some 11%Z); None; Some (Some 13%Z)]
  | None => False
  end.
Proof.
  cbn [initialize]. vm_compute. split; [reflexivity|]. split; [|reflexivity].
  intros mf sf [E|[]]. injection E as <- <-. exists (PAtom 10), (PAtom 10). auto.
Qed.

(** A parameter that is a dataclass among a list; a source that yields twice and returns. *)
Example C71_settings_and_source_case :
  (forall k v, In (k, v) [([97%N], PList [PData 3 [([98%N], PAtom 5)]])] -> without_gen v) /\
  map (fun p => (fst p, flat (snd p))) [([97%N], PList [PData 3 [([98%N], PAtom 5)]])]
    = [([97%N], PList [PDict [([98%N], PAtom 5)]])] /\
  (let b := Body (Yields (Some 1%Z) 1) (fun s (_ : option unit) => if Nat.eqb s 1 then Yields (Some 2%Z) 2 else Returns) in
   source b 2 Unstarted = ([Some 1%Z; Some 2%Z], true) /\ source b 5 Unstarted = ([Some 1%Z; Some 2%Z], false)).
Proof.
  split; [|split; [reflexivity|split; reflexivity]].
  intros k v [E|[]]. injection E as <- <-. constructor. intros w [<-|[]]. constructor.
  intros k v [E|[]]. injection E as <- <-. constructor.
Qed.

Print Assumptions C71_publishes_what_is_yielded.
Print Assumptions C71_new_value_never_takes_effect_refuted.
Print Assumptions C71_generator_is_never_replaced.
Print Assumptions C71_unprimed_generator_refuses_everything_refuted.
Print Assumptions C71_called_with_the_settings.
Print Assumptions C71_called_with_the_settings_as_dicts.
Print Assumptions C71_source_stops_with_the_function.
Print Assumptions C71_dataclass_parameter_arrives_as_dict_refuted.
Print Assumptions C71_source_publishes_what_is_yielded.
Print Assumptions C71_source_of_a_consumer_loses_a_value_refuted.
