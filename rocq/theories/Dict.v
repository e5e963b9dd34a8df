(* Python's dict and set, as used throughout the graph server and the DAG:
   a dict is an association list in insertion order, a set is a list without
   repetitions.  Only [get], [put], [del] (dict) and [mem], [sadd], [sdel]
   (set) are used by the models; the lemmas say they behave as Python's do.

   Simplification: a Python set has no observable order; here it has the order
   of insertion.  Every theorem about a set-valued answer is stated with [In]
   and [NoDup], never with a particular order. *)

From Coq Require Import List Arith NArith String Bool Lia.
Import ListNotations.

(** Decidable equality of keys (Python's [==] on hashables). *)
Class Dec (K : Type) := dec : forall x y : K, {x = y} + {x <> y}.
#[global] Instance dec_nat : Dec nat := Nat.eq_dec.
#[global] Instance dec_N : Dec N := N.eq_dec.
#[global] Instance dec_string : Dec string := string_dec.
#[global] Instance dec_bool : Dec bool := bool_dec.
#[global] Instance dec_prod {A B} `{Dec A} `{Dec B} : Dec (A * B).
Proof. intros x y; decide equality; apply dec. Defined.
#[global] Instance dec_option {A} `{Dec A} : Dec (option A).
Proof. intros x y; decide equality; apply dec. Defined.
#[global] Instance dec_list {A} `{Dec A} : Dec (list A).
Proof. intros x y; decide equality; apply dec. Defined.

Section Dict.
Context {K V : Type} `{Dec K}.

Definition eqd (x y : K) : bool := if dec x y then true else false.

(** Python: [x in s]. *)
Definition mem (x : K) (s : list K) : bool := existsb (eqd x) s.

(** Python: [s.add(x)]. *)
Definition sadd (x : K) (s : list K) : list K := if mem x s then s else s ++ [x].

(** Python: [s.discard(x)] / [s.remove(x)]. *)
Definition sdel (x : K) (s : list K) : list K := filter (fun y => negb (eqd x y)) s.

(** Python: [d.get(k)]. *)
Fixpoint get (k : K) (d : list (K * V)) : option V :=
  match d with
  | [] => None
  | (k', v) :: r => if dec k k' then Some v else get k r
  end.

(** Python: [d.get(k, default)]. *)
Definition getd (k : K) (dflt : V) (d : list (K * V)) : V :=
  match get k d with Some v => v | None => dflt end.

(** Python: [d[k] = v] (an existing key keeps its place). *)
Fixpoint put (k : K) (v : V) (d : list (K * V)) : list (K * V) :=
  match d with
  | [] => [(k, v)]
  | (k', v') :: r => if dec k k' then (k, v) :: r else (k', v') :: put k v r
  end.

(** Python: [d.pop(k, None)] / [del d[k]]. *)
Definition del (k : K) (d : list (K * V)) : list (K * V) :=
  filter (fun p => negb (eqd k (fst p))) d.

Definition keys (d : list (K * V)) : list K := map fst d.

(* ---- lemmas ---- *)

Lemma eqd_true x y : eqd x y = true <-> x = y.
Proof. unfold eqd; destruct (dec x y); split; congruence. Qed.

Lemma eqd_false x y : eqd x y = false <-> x <> y.
Proof. unfold eqd; destruct (dec x y); split; congruence. Qed.

Lemma eqd_refl x : eqd x x = true.
Proof. now apply eqd_true. Qed.

Lemma mem_In x s : mem x s = true <-> In x s.
Proof.
  unfold mem; rewrite existsb_exists; split.
  - intros [y [Hy E]]. apply eqd_true in E; now subst.
  - intros I; exists x; split; [assumption|apply eqd_refl].
Qed.

Lemma mem_false x s : mem x s = false <-> ~ In x s.
Proof. rewrite <- mem_In; destruct (mem x s); split; congruence. Qed.

Lemma In_sadd x y s : In x (sadd y s) <-> x = y \/ In x s.
Proof.
  unfold sadd; destruct (mem y s) eqn:E.
  - apply mem_In in E. split; [tauto|intros [->|I]; assumption].
  - rewrite in_app_iff; cbn. split; [intros [I|[->|[]]]; tauto|].
    intros [->|I]; tauto.
Qed.

Lemma NoDup_app_one x (s : list K) : NoDup s -> ~ In x s -> NoDup (s ++ [x]).
Proof.
  induction 1 as [|a s Na ND IH]; cbn; intros N; [repeat constructor; tauto|].
  constructor; [|apply IH; tauto]. rewrite in_app_iff; cbn. intuition congruence.
Qed.

Lemma NoDup_sadd x s : NoDup s -> NoDup (sadd x s).
Proof.
  intros ND; unfold sadd; destruct (mem x s) eqn:E; [assumption|].
  apply NoDup_app_one; [assumption|now apply mem_false].
Qed.

Lemma In_sdel x y s : In x (sdel y s) <-> x <> y /\ In x s.
Proof.
  unfold sdel; rewrite filter_In, negb_true_iff, eqd_false.
  intuition congruence.
Qed.

Lemma NoDup_sdel x s : NoDup s -> NoDup (sdel x s).
Proof. intros; now apply NoDup_filter. Qed.

Lemma get_put_eq k v d : get k (put k v d) = Some v.
Proof.
  induction d as [|[k' v'] d IH]; cbn; [destruct (dec k k); congruence|].
  destruct (dec k k'); cbn; [destruct (dec k k)|destruct (dec k k')]; congruence.
Qed.

Lemma get_put_neq k k' v d : k <> k' -> get k (put k' v d) = get k d.
Proof.
  intros N; induction d as [|[k2 v2] d IH]; cbn.
  - destruct (dec k k'); congruence.
  - destruct (dec k' k2); cbn.
    + subst; destruct (dec k k2); [congruence|reflexivity].
    + destruct (dec k k2); [reflexivity|assumption].
Qed.

Lemma get_put k k' v d : get k (put k' v d) = if dec k k' then Some v else get k d.
Proof. destruct (dec k k'); [subst; apply get_put_eq|now apply get_put_neq]. Qed.

Lemma get_del k k' d : get k (del k' d) = if dec k k' then None else get k d.
Proof.
  induction d as [|[k2 v2] d IH]; [cbn; now destruct (dec k k')|].
  change (del k' ((k2, v2) :: d))
    with (if negb (eqd k' k2) then (k2, v2) :: del k' d else del k' d).
  unfold eqd; destruct (dec k' k2); cbn [negb get].
  - subst. rewrite IH. destruct (dec k k2); reflexivity.
  - rewrite IH. destruct (dec k k2); [|reflexivity].
    subst. destruct (dec k2 k'); congruence.
Qed.

Lemma get_del_eq k d : get k (del k d) = None.
Proof. rewrite get_del; destruct (dec k k); congruence. Qed.

Lemma get_del_neq k k' d : k <> k' -> get k (del k' d) = get k d.
Proof. intros; rewrite get_del; destruct (dec k k'); congruence. Qed.

Lemma keys_put k k' v d : In k (keys (put k' v d)) <-> k = k' \/ In k (keys d).
Proof.
  unfold keys; induction d as [|[k2 v2] d IH]; cbn; [intuition congruence|].
  destruct (dec k' k2); cbn; [subst; intuition congruence|rewrite IH; tauto].
Qed.

Lemma NoDup_keys_put k v d : NoDup (keys d) -> NoDup (keys (put k v d)).
Proof.
  induction d as [|[k2 v2] d IH]; cbn; intros ND; [repeat constructor; tauto|].
  inversion ND as [|? ? N ND']; subst. destruct (dec k k2); cbn.
  - subst; now constructor.
  - constructor; [|now apply IH]. intros I. apply keys_put in I as [E|I]; [congruence|tauto].
Qed.

Lemma keys_del k k' d : In k (keys (del k' d)) <-> k <> k' /\ In k (keys d).
Proof.
  unfold keys, del; induction d as [|[k2 v2] d IH]; cbn; [tauto|].
  destruct (eqd k' k2) eqn:E; cbn; [apply eqd_true in E|apply eqd_false in E];
    rewrite IH; intuition congruence.
Qed.

Lemma NoDup_keys_del k d : NoDup (keys d) -> NoDup (keys (del k d)).
Proof.
  unfold keys, del; induction d as [|[k2 v2] d IH]; cbn; intros ND; [constructor|].
  inversion ND as [|? ? N ND']; subst. destruct (eqd k k2); cbn; [now apply IH|].
  constructor; [|now apply IH]. intros I. apply N. apply in_map_iff in I as [p [E I]].
  apply filter_In in I as [I _]. apply in_map_iff; eauto.
Qed.

Lemma get_None k d : get k d = None <-> ~ In k (keys d).
Proof.
  unfold keys; induction d as [|[k2 v2] d IH]; cbn; [tauto|].
  destruct (dec k k2); [subst; intuition congruence|rewrite IH; intuition congruence].
Qed.

Lemma get_In k v d : get k d = Some v -> In (k, v) d.
Proof.
  induction d as [|[k2 v2] d IH]; cbn; [discriminate|].
  destruct (dec k k2); [intros [= ->]; subst; now left|right; now apply IH].
Qed.

Lemma get_Some_key k v d : get k d = Some v -> In k (keys d).
Proof. intros E; apply get_In in E. apply in_map_iff; now exists (k, v). Qed.

Lemma key_get k d : In k (keys d) -> exists v, get k d = Some v.
Proof.
  intros I; destruct (get k d) eqn:E; [eauto|]. apply get_None in E; tauto.
Qed.

Lemma In_get k v d : NoDup (keys d) -> In (k, v) d -> get k d = Some v.
Proof.
  induction d as [|[k2 v2] d IH]; cbn; intros ND; [tauto|].
  inversion ND as [|? ? N ND']; subst.
  intros [E|I]; [injection E as -> ->; destruct (dec k k); congruence|].
  destruct (dec k k2); [|now apply IH]. subst. exfalso; apply N.
  apply in_map_iff; now exists (k2, v).
Qed.

Lemma In_put k v k' v' d : NoDup (keys d) ->
  (In (k, v) (put k' v' d) <-> (k = k' /\ v = v') \/ (k <> k' /\ In (k, v) d)).
Proof.
  intros ND. pose proof (NoDup_keys_put k' v' d ND) as ND'. split.
  - intros I. apply In_get in I; [|assumption]. rewrite get_put in I.
    destruct (dec k k'); [left; split; congruence|right; split; [assumption|now apply get_In]].
  - intros [[-> ->]|[N I]]; apply get_In; rewrite get_put.
    + destruct (dec k' k'); congruence.
    + destruct (dec k k'); [congruence|now apply In_get].
Qed.

Lemma In_del k v k' d : In (k, v) (del k' d) <-> k <> k' /\ In (k, v) d.
Proof.
  unfold del; rewrite filter_In, negb_true_iff; cbn. rewrite eqd_false. intuition congruence.
Qed.

Lemma del_absent k d : ~ In k (keys d) -> del k d = d.
Proof.
  unfold keys, del; induction d as [|[k2 v2] d IH]; cbn; intros N; [reflexivity|].
  destruct (eqd k k2) eqn:E; [apply eqd_true in E; subst; tauto|cbn; f_equal; apply IH; tauto].
Qed.

Lemma put_absent k v d : ~ In k (keys d) -> put k v d = d ++ [(k, v)].
Proof.
  unfold keys; induction d as [|[k2 v2] d IH]; cbn; intros N; [reflexivity|].
  destruct (dec k k2); [subst; tauto|f_equal; apply IH; tauto].
Qed.

Lemma put_get k v d : get k d = Some v -> put k v d = d.
Proof.
  induction d as [|[k2 v2] d IH]; cbn; [discriminate|].
  destruct (dec k k2); [intros [= ->]; subst; reflexivity|intros E; f_equal; auto].
Qed.

Lemma del_put_absent k v d : ~ In k (keys d) -> del k (put k v d) = d.
Proof.
  intros N. rewrite put_absent by assumption. unfold del. rewrite filter_app. cbn.
  rewrite eqd_refl; cbn. rewrite app_nil_r. now apply del_absent.
Qed.

End Dict.
