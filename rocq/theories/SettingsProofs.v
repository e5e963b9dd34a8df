From Coq Require Import String Ascii List Arith Bool Lia.
From Verif Require Import Dict SettingsModel SettingsSpec.
Import ListNotations.

Definition extends (h h' : heap) : Prop := exists k, h' = h ++ k.

Lemma ext_refl h : extends h h.
Proof. exists []. now rewrite app_nil_r. Qed.
Lemma ext_trans a b c : extends a b -> extends b c -> extends a c.
Proof. intros [k ->] [l ->]. exists (k ++ l). now rewrite app_assoc. Qed.
Lemma ext_app h k : extends h (h ++ k).
Proof. now exists k. Qed.
Lemma ext_len h h' : extends h h' -> length h <= length h'.
Proof. intros [k ->]. rewrite app_length. lia. Qed.
Lemma ext_nth h h' i o : extends h h' -> nth_error h i = Some o -> nth_error h' i = Some o.
Proof.
  intros [k ->] E. rewrite nth_error_app1; [assumption|]. apply nth_error_Some. congruence.
Qed.
#[global] Hint Resolve ext_refl ext_app : core.

Lemma below_le n m v : n <= m -> below n v -> below m v.
Proof. destruct v; cbn; lia. Qed.

Lemma nth_last {A} (l : list A) x : nth_error (l ++ [x]) (length l) = Some x.
Proof. rewrite nth_error_app2 by lia. now rewrite Nat.sub_diag. Qed.

Lemma part_In o st c : part o st = Some c -> In c (parts o).
Proof.
  destruct o, st; cbn [part]; try discriminate; cbn [getattr parts].
  - intros G. apply get_In in G. now apply (in_map snd) in G.
  - destruct (get name a) eqn:G; intros E.
    + injection E as <-. apply get_In in G. apply (in_map snd) in G. apply in_app_iff. now left.
    + apply get_In in E. apply (in_map snd) in E. apply in_app_iff. right. apply in_app_iff. now left.
  - destruct (get name a) eqn:G; intros E.
    + injection E as <-. apply get_In in G. apply (in_map snd) in G. apply in_app_iff. now left.
    + apply get_In in E. apply (in_map snd) in E. apply in_app_iff. now right.
  - destruct (get name a) eqn:G; intros E.
    + injection E as <-. apply get_In in G. apply (in_map snd) in G. apply in_app_iff. now left.
    + apply get_In in E. apply (in_map snd) in E. apply in_app_iff. now right.
  - apply nth_error_In.
Qed.

Lemma part_below h i o st c : well_founded_heap h -> nth_error h i = Some o -> part o st = Some c -> below i c.
Proof. intros W E P. apply part_In in P. exact (proj1 (Forall_forall _ _) (W i o E) c P). Qed.

Lemma node_ext h h' : well_founded_heap h -> extends h h' -> forall q v, below (length h) v -> node h' v q = node h v q.
Proof.
  intros W X. induction q as [|st q IH]; intros v B.
  - destruct v; [reflexivity|]. cbn in *. destruct (nth_error h i) eqn:E.
    + now rewrite (ext_nth _ _ _ _ X E).
    + apply nth_error_None in E. lia.
  - destruct v; [reflexivity|]. cbn in B |- *. destruct (nth_error h i) eqn:E.
    + rewrite (ext_nth _ _ _ _ X E). destruct (part o st) eqn:P; [|reflexivity].
      apply IH. eapply below_le; [|eapply part_below; eauto]. lia.
    + apply nth_error_None in E. lia.
Qed.

Lemma wf_snoc h o : well_founded_heap h -> Forall (below (length h)) (parts o) -> well_founded_heap (h ++ [o]).
Proof.
  intros W F i o' E. destruct (lt_dec i (length h)) as [L|L].
  - rewrite nth_error_app1 in E by assumption. now apply W.
  - assert (i = length h).
    { assert (i < length (h ++ [o])) by (apply nth_error_Some; congruence). rewrite app_length in H. cbn in H. lia. }
    subst i. rewrite nth_last in E. injection E as <-. assumption.
Qed.

Lemma Forall_below_le n m l : n <= m -> Forall (below n) l -> Forall (below m) l.
Proof. intros L. apply Forall_impl. intros v. now apply below_le. Qed.

(* ---------- deepcopy ---------- *)

Definition copies (h : heap) (v : value) (h' : heap) (v' : value) : Prop :=
  below (length h') v' /\ forall q, node h' v' q = node h v q.

Definition good_rec (n : nat) (rec : heap -> value -> heap * value) : Prop :=
  forall h v, well_founded_heap h -> below n v -> below (length h) v ->
  exists h' v', rec h v = (h', v') /\ extends h h' /\ well_founded_heap h' /\ copies h v h' v'.

Lemma copies_ext h v h1 v1 h2 : well_founded_heap h1 -> extends h1 h2 -> copies h v h1 v1 -> copies h v h2 v1.
Proof.
  intros W X [B C]. split.
  - eapply below_le; [|exact B]. now apply ext_len.
  - intros q. rewrite (node_ext h1 h2 W X q v1 B). apply C.
Qed.

Lemma copies_ext_l h0 h v h1 v1 : well_founded_heap h0 -> extends h0 h -> below (length h0) v ->
  copies h v h1 v1 -> copies h0 v h1 v1.
Proof.
  intros W X B [B' C]. split; [assumption|]. intros q. rewrite C. now apply node_ext.
Qed.

Lemma copy_attrs_good n rec : good_rec n rec -> forall a h, well_founded_heap h ->
  Forall (below n) (map snd a) -> Forall (below (length h)) (map snd a) ->
  exists h' a', copy_attrs rec h a = (h', a') /\ extends h h' /\ well_founded_heap h' /\
    Forall2 (fun p p' => fst p = fst p' /\ copies h (snd p) h' (snd p')) a a'.
Proof.
  intros R. induction a as [|[k v] a IH]; intros h W F1 F2; cbn.
  - exists h, []. auto.
  - inversion F1; subst. inversion F2; subst.
    destruct (R h v W H1 H3) as [h1 [v' [E1 [X1 [W1 C1]]]]]. rewrite E1.
    destruct (IH h1 W1 H2) as [h2 [a' [E2 [X2 [W2 C2]]]]].
    { eapply Forall_below_le; [|eassumption]. now apply ext_len. }
    rewrite E2. exists h2, ((k, v') :: a'). split; [reflexivity|]. split; [eapply ext_trans; eauto|]. split; [assumption|].
    constructor; [split; [reflexivity|exact (copies_ext h v h1 v' h2 W1 X2 C1)]|].
    clear - C2 W X1 H4 W1. revert a' C2. induction a as [|[k0 v0] a IH]; intros a' C2; inversion C2; subst; [constructor|].
    inversion H4; subst. constructor; [|now apply IH]. match goal with H : _ /\ copies _ _ _ _ |- _ => destruct H as [A B] end.
    split; [assumption|].
    eapply copies_ext_l; eauto.
Qed.

Lemma copy_values_good n rec : good_rec n rec -> forall a h, well_founded_heap h ->
  Forall (below n) a -> Forall (below (length h)) a ->
  exists h' a', copy_values rec h a = (h', a') /\ extends h h' /\ well_founded_heap h' /\
    Forall2 (fun p p' => copies h p h' p') a a'.
Proof.
  intros R. induction a as [|v a IH]; intros h W F1 F2; cbn.
  - exists h, []. auto.
  - inversion F1; subst. inversion F2; subst.
    destruct (R h v W H1 H3) as [h1 [v' [E1 [X1 [W1 C1]]]]]. rewrite E1.
    destruct (IH h1 W1 H2) as [h2 [a' [E2 [X2 [W2 C2]]]]].
    { eapply Forall_below_le; [|eassumption]. now apply ext_len. }
    rewrite E2. exists h2, (v' :: a'). split; [reflexivity|]. split; [eapply ext_trans; eauto|]. split; [assumption|].
    constructor; [exact (copies_ext h v h1 v' h2 W1 X2 C1)|].
    clear - C2 W X1 H4 W1. revert a' C2. induction a as [|v0 a IH]; intros a' C2; inversion C2; subst; [constructor|].
    inversion H4; subst. constructor; [|now apply IH].
    eapply copies_ext_l; eauto.
Qed.

Lemma F2_keys h h' (a a' : attrs) : Forall2 (fun p p' => fst p = fst p' /\ copies h (snd p) h' (snd p')) a a' -> keys a = keys a'.
Proof. induction 1; [reflexivity|]. cbn. destruct H. f_equal; assumption. Qed.

Lemma F2_get h h' n (a a' : attrs) : Forall2 (fun p p' => fst p = fst p' /\ copies h (snd p) h' (snd p')) a a' ->
  match get n a, get n a' with Some v, Some v' => copies h v h' v' | None, None => True | _, _ => False end.
Proof.
  induction 1 as [|[k v] [k' v'] a a' [E C] _ IH]; cbn in *; [exact I|]. subst k'. now destruct (dec n k).
Qed.

Lemma F2_below h h' (a a' : attrs) : Forall2 (fun p p' => fst p = fst p' /\ copies h (snd p) h' (snd p')) a a' ->
  Forall (below (length h')) (map snd a').
Proof. induction 1; cbn; constructor; auto. apply H. Qed.

Lemma F2_nth h h' n (a a' : list value) : Forall2 (fun p p' => copies h p h' p') a a' ->
  match nth_error a n, nth_error a' n with Some v, Some v' => copies h v h' v' | None, None => True | _, _ => False end.
Proof.
  intros F. revert n. induction F; intros [|n]; cbn; auto. apply IHF.
Qed.

Lemma F2_vbelow h h' (a a' : list value) : Forall2 (fun p p' => copies h p h' p') a a' ->
  Forall (below (length h')) a'.
Proof. induction 1; cbn; constructor; auto. apply H. Qed.

(** A copied object looks the same, part by part. *)
Definition copies_object (h : heap) (o : object) (h' : heap) (o' : object) : Prop :=
  label_of o' = label_of o /\ Forall (below (length h')) (parts o') /\
  forall st, match part o st, part o' st with
             | Some v, Some v' => copies h v h' v' | None, None => True | _, _ => False end.

Lemma copy_object_good n rec : good_rec n rec -> forall o h, well_founded_heap h ->
  Forall (below n) (parts o) -> Forall (below (length h)) (parts o) ->
  exists h' o', copy_object rec h o = (h', o') /\ extends h h' /\ well_founded_heap h' /\ copies_object h o h' o'.
Proof.
  intros R o h W F1 F2.
  assert (Cls : forall h', extends h h' -> forall (l : list value), Forall (below (length h)) l -> Forall (below (length h')) l).
  { intros h' X l. apply Forall_below_le. now apply ext_len. }
  assert (ClsC : forall h', extends h h' -> forall v, below (length h) v -> copies h v h' v).
  { intros h' X v B. split; [eapply below_le; [|exact B]; now apply ext_len|]. intros q. now apply node_ext. }
  destruct o; cbn [parts copy_object] in *.
  - destruct (copy_attrs_good n rec R d h W F1 F2) as [h' [a' [E [X [W' C]]]]]. rewrite E.
    exists h', (OMap a'). split; [reflexivity|]. split; [assumption|]. split; [assumption|]. split; [cbn; now rewrite (F2_keys _ _ _ _ C)|].
    split; [cbn; eapply F2_below; eauto|]. intros [m|m]; cbn; [|exact I]. now apply F2_get.
  - apply Forall_app in F1 as [F1 _]. apply Forall_app in F2 as [F2 F3].
    destruct (copy_attrs_good n rec R a h W F1 F2) as [h' [a' [E [X [W' C]]]]]. rewrite E.
    exists h', (OData fs a' cls). split; [reflexivity|]. split; [assumption|]. split; [assumption|]. split; [cbn; now rewrite (F2_keys _ _ _ _ C)|].
    split; [cbn; apply Forall_app; split; [eapply F2_below; eauto|now apply Cls]|]. intros [m|m]; cbn; [|exact I].
    pose proof (F2_get _ _ m _ _ C) as G. destruct (get m a), (get m a'); try contradiction; [assumption|].
    destruct (get m cls) eqn:K; [|exact I]. apply ClsC; [assumption|]. apply get_In in K. apply (in_map snd) in K.
    apply Forall_app in F3 as [F3 _]. exact (proj1 (Forall_forall _ _) F3 _ K).
  - apply Forall_app in F1 as [F1 _]. apply Forall_app in F2 as [F2 F3].
    destruct (copy_attrs_good n rec R a h W F1 F2) as [h' [a' [E [X [W' C]]]]]. rewrite E.
    exists h', (OModel a' cls). split; [reflexivity|]. split; [assumption|]. split; [assumption|]. split; [cbn; now rewrite (F2_keys _ _ _ _ C)|].
    split; [cbn; apply Forall_app; split; [eapply F2_below; eauto|now apply Cls]|]. intros [m|m]; cbn; [|exact I].
    pose proof (F2_get _ _ m _ _ C) as G. destruct (get m a), (get m a'); try contradiction; [assumption|].
    destruct (get m cls) eqn:K; [|exact I]. apply ClsC; [assumption|]. apply get_In in K. apply (in_map snd) in K.
    exact (proj1 (Forall_forall _ _) F3 _ K).
  - apply Forall_app in F1 as [F1 _]. apply Forall_app in F2 as [F2 F3].
    destruct (copy_attrs_good n rec R a h W F1 F2) as [h' [a' [E [X [W' C]]]]]. rewrite E.
    exists h', (OPlain a' cls). split; [reflexivity|]. split; [assumption|]. split; [assumption|]. split; [cbn; now rewrite (F2_keys _ _ _ _ C)|].
    split; [cbn; apply Forall_app; split; [eapply F2_below; eauto|now apply Cls]|]. intros [m|m]; cbn; [|exact I].
    pose proof (F2_get _ _ m _ _ C) as G. destruct (get m a), (get m a'); try contradiction; [assumption|].
    destruct (get m cls) eqn:K; [|exact I]. apply ClsC; [assumption|]. apply get_In in K. apply (in_map snd) in K.
    exact (proj1 (Forall_forall _ _) F3 _ K).
  - destruct (copy_values_good n rec R l h W F1 F2) as [h' [a' [E [X [W' C]]]]]. rewrite E.
    exists h', (OSeq a'). split; [reflexivity|]. split; [assumption|]. split; [assumption|].
    split; [cbn; f_equal; symmetry; clear - C; induction C; cbn; congruence|].
    split; [cbn; eapply F2_vbelow; eauto|]. intros [m|m]; cbn; [exact I|]. now apply F2_nth.
Qed.

Lemma copies_object_node h i o h' o' : nth_error h i = Some o -> well_founded_heap h' -> copies_object h o h' o' ->
  forall q, node (h' ++ [o']) (VRef (length h')) q = node h (VRef i) q.
Proof.
  intros E W [L [F P]] [|st q]; cbn; rewrite nth_last, E; [cbn; now rewrite L|].
  specialize (P st). destruct (part o st), (part o' st); try contradiction; [|reflexivity].
  destruct P as [B C]. rewrite <- C. now apply node_ext.
Qed.

Lemma deepcopy_good n : good_rec n (deepcopy_upto n).
Proof.
  induction n as [|n IH]; intros h v W B1 B2.
  - exists h, v. destruct v; [|cbn in B1; lia]. split; [reflexivity|]. split; [auto|]. split; [assumption|]. split; cbn; auto.
  - destruct v as [a|i].
    { exists h, (VAtom a). split; [reflexivity|]. split; [auto|]. split; [assumption|]. split; cbn; auto. }
    cbn [deepcopy_upto]. cbn in B1, B2. destruct (nth_error h i) as [o|] eqn:E.
    2:{ apply nth_error_None in E. lia. }
    pose proof (W i o E) as F.
    destruct (copy_object_good n _ IH o h W) as [h' [o' [Ec [X [W' C]]]]].
    { eapply Forall_below_le; [|exact F]. lia. } { eapply Forall_below_le; [|exact F]. lia. }
    rewrite Ec. cbn [alloc]. exists (h' ++ [o']), (VRef (length h')). split; [reflexivity|].
    split; [eapply ext_trans; eauto|]. split; [apply wf_snoc; [assumption|apply C]|]. split; [cbn; rewrite app_length; cbn; lia|].
    now apply (copies_object_node h i o).
Qed.

(** deepcopy of the object at [i]: the copy is the youngest object. *)
Lemma deepcopy_object h i o : well_founded_heap h -> nth_error h i = Some o ->
  exists hc o', deepcopy h (VRef i) = (hc ++ [o'], VRef (length hc)) /\ extends h hc /\ well_founded_heap hc /\
    copies_object h o hc o'.
Proof.
  intros W E. assert (L : i < length h) by (apply nth_error_Some; congruence).
  unfold deepcopy. destruct (length h) as [|n] eqn:N; [lia|]. cbn [deepcopy_upto]. rewrite E.
  pose proof (W i o E) as F.
  destruct (copy_object_good n _ (deepcopy_good n) o h W) as [h' [o' [Ec [X [W' C]]]]].
  { eapply Forall_below_le; [|exact F]. lia. } { eapply Forall_below_le; [|exact F]. lia. }
  rewrite Ec. exists h', o'. auto.
Qed.

(** Nothing that existed is changed: no premise on the heap. *)
Lemma copy_attrs_ext rec : (forall h v, extends h (fst (rec h v))) -> forall a h, extends h (fst (copy_attrs rec h a)).
Proof.
  intros R. induction a as [|[k v] a IH]; intros h; cbn; [auto|]. specialize (R h v). destruct (rec h v) as [h1 v'].
  specialize (IH h1). destruct (copy_attrs rec h1 a). cbn in *. eapply ext_trans; eauto.
Qed.

Lemma copy_values_ext rec : (forall h v, extends h (fst (rec h v))) -> forall a h, extends h (fst (copy_values rec h a)).
Proof.
  intros R. induction a as [|v a IH]; intros h; cbn; [auto|]. specialize (R h v). destruct (rec h v) as [h1 v'].
  specialize (IH h1). destruct (copy_values rec h1 a). cbn in *. eapply ext_trans; eauto.
Qed.

Lemma deepcopy_upto_ext n : forall h v, extends h (fst (deepcopy_upto n h v)).
Proof.
  induction n as [|n IH]; intros h v; destruct v as [a|i]; cbn; auto.
  destruct (nth_error h i) as [o|]; [|auto].
  assert (K : extends h (fst (copy_object (deepcopy_upto n) h o))).
  { destruct o; cbn;
      try (pose proof (copy_attrs_ext _ IH d h) as K; destruct (copy_attrs _ h d); exact K);
      try (pose proof (copy_attrs_ext _ IH a h) as K; destruct (copy_attrs _ h a); exact K).
    pose proof (copy_values_ext _ IH l h) as K; destruct (copy_values _ h l); exact K. }
  destruct (copy_object _ h o) as [h1 o']. cbn in *. eapply ext_trans; eauto.
Qed.

Lemma update_snoc h o o' : update (length h) o' (h ++ [o]) = h ++ [o'].
Proof. induction h; cbn; congruence. Qed.

(** The result of deepcopy is a new object, or nothing was copied. *)
Lemma deepcopy_fresh h i h1 j : nth_error h i <> None -> deepcopy h (VRef i) = (h1, VRef j) ->
  exists h2 o, h1 = h2 ++ [o] /\ j = length h2 /\ extends h h2.
Proof.
  intros N E. assert (L : i < length h) by now apply nth_error_Some.
  unfold deepcopy in E. destruct (length h) as [|n]; [lia|]. cbn [deepcopy_upto] in E.
  destruct (nth_error h i) as [o|]; [|congruence].
  assert (K : extends h (fst (copy_object (deepcopy_upto n) h o))).
  { pose proof (deepcopy_upto_ext n) as IH. destruct o; cbn;
      try (pose proof (copy_attrs_ext _ IH d h) as K; destruct (copy_attrs _ h d); exact K);
      try (pose proof (copy_attrs_ext _ IH a h) as K; destruct (copy_attrs _ h a); exact K).
    pose proof (copy_values_ext _ IH l h) as K; destruct (copy_values _ h l); exact K. }
  destruct (copy_object _ h o) as [h2 o']. cbn in *. injection E as <- <-. eauto.
Qed.

Lemma patch_ext h i name v : extends h (fst (patch_object_field h i name v)).
Proof.
  unfold patch_object_field. destruct (nth_error h i) as [o|] eqn:E; [|auto].
  destruct o; cbn [fst alloc]; auto.
  - destruct (mem name _); [|auto]. destruct (replace_fields _ _ _ _); cbn; auto.
  - destruct (getattr _ name); [|auto]. destruct (deepcopy h (VRef i)) as [h1 r] eqn:D.
    pose proof (deepcopy_upto_ext (length h) h (VRef i)) as X. change (deepcopy_upto (length h) h (VRef i)) with (deepcopy h (VRef i)) in X.
    rewrite D in X. cbn in X.
    destruct r as [|j]; [exact X|]. destruct (deepcopy_fresh h i h1 j) as [h2 [o [-> [-> X2]]]]; [congruence|assumption|].
    cbn [fst]. unfold setattr. rewrite nth_last. destruct o; try exact X;
      rewrite update_snoc; eapply ext_trans; eauto.
Qed.

Lemma apply_ext : forall path v h cur, extends h (fst (apply_path path v h cur)).
Proof.
  induction path as [|n r IH]; intros v h cur; [cbn; destruct cur; auto|]. destruct cur as [a|i]; [cbn; auto|].
  cbn [apply_path]. destruct (nth_error h i) as [o|]; [|auto].
  assert (G : forall o, extends h (fst (match getattr o n with
          | Some child => match r with [] => patch_object_field h i n v
              | _ :: _ => match apply_path r v h child with (h1, Some c) => patch_object_field h1 i n c | (h1, None) => (h1, None) end end
          | None => (h, None) end))).
  { intros o0. destruct (getattr o0 n) as [c|]; [|cbn; auto]. destruct r; [apply patch_ext|].
    specialize (IH v h c). destruct (apply_path _ v h c) as [h1 [c'|]]; cbn in *; [|auto].
    eapply ext_trans; [exact IH|apply patch_ext]. }
  destruct o; try apply G. destruct (get n d) as [c|]; [|cbn; auto]. destruct r; [cbn; auto|].
  specialize (IH v h c). destruct (apply_path _ v h c) as [h1 [c'|]]; cbn in *; [|auto]. eapply ext_trans; eauto.
Qed.

Lemma untouched h settings fp v h' r :
  replace_settings_field h settings fp v = (h', r) -> forall i, i < length h -> nth_error h' i = nth_error h i.
Proof.
  intros E i L. assert (X : extends h h').
  { unfold replace_settings_field in E. destruct fp; [injection E as <- <-; auto|].
    pose proof (apply_ext (split_dot (String a fp)) v h settings) as X. rewrite E in X. exact X. }
  destruct X as [k ->]. now apply nth_error_app1.
Qed.

(* ---------- one object ---------- *)

(** [o] with its field [name] set: what either branch of [apply] makes of it. *)
Definition patch_one (h : heap) (i : nat) (name : string) (v : value) : heap * option value :=
  match nth_error h i with
  | Some (OMap d) => let (h1, r) := alloc (OMap (put name v d)) h in (h1, Some r)
  | _ => patch_object_field h i name v
  end.

Lemma keys_put_in {V} (n : string) (v : V) d : get n d <> None -> keys (put n v d) = keys d.
Proof.
  induction d as [|[k w] d IH]; cbn; [congruence|]. destruct (dec n k) as [->|]; [reflexivity|]. cbn. intros G. f_equal. now apply IH.
Qed.

Lemma replace_ok fs : forall (a cls : attrs) fs0 name v,
  NoDup (map f_name fs) -> Forall (fun f => f_init f = true) fs ->
  (forall n, In n (map f_name fs) -> get n a <> None) ->
  exists a', replace_fields fs (OData fs0 a cls) name v = Some a' /\ keys a' = map f_name fs /\
    (forall m, m <> name -> In m (map f_name fs) -> get m a' = get m a) /\
    (In name (map f_name fs) -> get name a' = Some v) /\
    (forall x, In x (map snd a') -> x = v \/ In x (map snd a)).
Proof.
  induction fs as [|f fs IH]; intros a cls fs0 name v N I G.
  - exists []. cbn. split; [reflexivity|]. split; [reflexivity|]. split; [intros ? ? K; destruct K|]. split; [intros K; destruct K|intros ? K; destruct K].
  - inversion N as [|? ? Nf Nr]; subst. inversion I as [|? ? If Ir]; subst.
    destruct (IH a cls fs0 name v Nr Ir) as [a' [E [K [O [Sx B]]]]]. { intros n H. apply G. now right. }
    cbn [replace_fields]. rewrite E, If. unfold eqd. destruct (dec (f_name f) name) as [D|D].
    + exists ((f_name f, v) :: a'). split; [reflexivity|]. split; [cbn; unfold keys in K; now rewrite K|]. split; [|split].
      * intros m Hm Im. cbn. destruct (dec m (f_name f)) as [->|]; [congruence|]. apply O; [assumption|]. destruct Im; [congruence|assumption].
      * intros _. cbn. destruct (dec name (f_name f)); [reflexivity|congruence].
      * intros x Ix. cbn in Ix. destruct Ix as [<-|Ix]; [now left|now apply B].
    + cbn [getattr]. destruct (get (f_name f) a) as [w|] eqn:Gf; [|exfalso; apply (G (f_name f)); [now left|assumption]].
      exists ((f_name f, w) :: a'). split; [reflexivity|]. split; [cbn; unfold keys in K; now rewrite K|]. split; [|split].
      * intros m Hm Im. cbn. destruct (dec m (f_name f)) as [->|]; [now rewrite Gf|]. apply O; [assumption|]. destruct Im; [congruence|assumption].
      * intros Im. cbn. destruct (dec name (f_name f)); [congruence|]. apply Sx. destruct Im; [congruence|assumption].
      * intros x Ix. cbn in Ix. destruct Ix as [<-|Ix]; [|now apply B]. right. apply get_In in Gf. now apply (in_map snd) in Gf.
Qed.

Lemma put_parts {V} (n : string) (v : V) d x : In x (map snd (put n v d)) -> x = v \/ In x (map snd d).
Proof.
  induction d as [|[k w] d IH]; cbn; [intros [<-|K]; [now left|destruct K]|]. destruct (dec n k); cbn.
  - intros [<-|K]; auto.
  - intros [<-|K]; auto. destruct (IH K); auto.
Qed.

(** The new object: same label, the field set, the other parts kept. *)
Lemma patch_one_good h i o name v :
  well_founded_heap h -> nth_error h i = Some o -> ordinary o -> own_field o name <> None -> below (length h) v ->
  exists h' j, patch_one h i name v = (h', Some (VRef j)) /\ extends h h' /\ well_founded_heap h' /\ j < length h' /\
    node h' (VRef j) [] = node h (VRef i) [] /\
    (forall q, node h' (VRef j) (SKey name :: q) = node h v q) /\
    (forall st q, st <> SKey name -> node h' (VRef j) (st :: q) = node h (VRef i) (st :: q)).
Proof.
  intros W E O F B.
  (* it is enough to describe the new object *)
  assert (New : forall hc o', extends h hc -> well_founded_heap hc -> Forall (below (length hc)) (parts o') ->
     label_of o' = label_of o -> part o' (SKey name) = Some v ->
     (forall st, st <> SKey name -> match part o st, part o' st with
             | Some x, Some x' => copies h x hc x' | None, None => True | _, _ => False end) ->
     extends h (hc ++ [o']) /\ well_founded_heap (hc ++ [o']) /\ length hc < length (hc ++ [o']) /\
     node (hc ++ [o']) (VRef (length hc)) [] = node h (VRef i) [] /\
    (forall q, node (hc ++ [o']) (VRef (length hc)) (SKey name :: q) = node h v q) /\
    (forall st q, st <> SKey name -> node (hc ++ [o']) (VRef (length hc)) (st :: q) = node h (VRef i) (st :: q))).
  { intros hc o' X Wc Fp L Pv Po. assert (W' : well_founded_heap (hc ++ [o'])) by now apply wf_snoc.
    assert (Xh : extends h (hc ++ [o'])) by (eapply ext_trans; eauto).
    split; [assumption|]. split; [assumption|]. split; [rewrite app_length; cbn; lia|].
    split; [cbn; rewrite nth_last, E; cbn; now rewrite L|]. split.
    - intros q. cbn. rewrite nth_last, Pv. now apply node_ext.
    - intros st q N. cbn. rewrite nth_last, E. specialize (Po st N).
      destruct (part o st) as [x|], (part o' st) as [x'|]; try contradiction; [|reflexivity].
      destruct Po as [Bx Cx]. rewrite <- Cx. now apply node_ext. }
  assert (Refl : forall x, In x (parts o) -> copies h x h x).
  { intros x Ix. split; [|reflexivity]. eapply below_le; [|exact (proj1 (Forall_forall _ _) (W i o E) x Ix)].
    apply Nat.lt_le_incl, nth_error_Some. congruence. }
  assert (Bi : forall x, In x (parts o) -> below (length h) x) by (intros x Ix; now apply Refl).
  unfold patch_one. rewrite E. destruct o as [d|fs a cls|a cls|a cls|l]; cbn [own_field] in F.
  - cbn [alloc]. exists (h ++ [OMap (put name v d)]), (length h). split; [reflexivity|]. apply New; auto.
    + cbn. apply Forall_forall. intros x Ix. apply put_parts in Ix as [->|Ix]; auto.
    + cbn. now rewrite keys_put_in.
    + cbn. rewrite get_put. now destruct (dec name name).
    + intros [m|m] N; cbn; [|exact I]. rewrite get_put. destruct (dec m name); [congruence|].
      destruct (get m d) eqn:G; [|exact I]. apply Refl. apply (part_In (OMap d) (SKey m)). exact G.
  - cbn in O. destruct O as [K [N In_]]. unfold patch_object_field. rewrite E.
    assert (Hn : In name (map f_name fs)).
    { rewrite <- K. destruct (get name a) eqn:G; [|congruence]. now apply get_Some_key in G. }
    rewrite (proj2 (mem_In _ _) Hn).
    destruct (replace_ok fs a cls fs name v N In_) as [a' [Er [Ka [Ko [Kn Kb]]]]].
    { intros n Hin. rewrite <- K in Hin. intros G. now apply get_None in G. }
    rewrite Er. cbn [alloc]. exists (h ++ [OData fs a' cls]), (length h). split; [reflexivity|]. apply New; auto.
    + cbn. apply Forall_app. split.
      * apply Forall_forall. intros x Ix. apply Kb in Ix as [->|Ix]; auto. apply Bi. cbn. apply in_app_iff. now left.
      * apply Forall_forall. intros x Ix. apply Bi. cbn. apply in_app_iff. now right.
    + cbn. rewrite Ka. unfold keys in *. now rewrite K.
    + cbn. now rewrite (Kn Hn).
    + intros [m|m] Nm; cbn; [|exact I]. destruct (get m a) as [x|] eqn:G.
      * assert (Im : In m (map f_name fs)) by (rewrite <- K; now apply get_Some_key in G).
        rewrite (Ko m); [|congruence|assumption]. rewrite G. apply Refl. apply (part_In (OData fs a cls) (SKey m)). cbn. now rewrite G.
      * assert (G' : get m a' = None).
        { apply get_None. rewrite Ka, <- K. now apply get_None. }
        rewrite G'. destruct (get m cls) eqn:Gc; [|exact I]. apply Refl. apply (part_In (OData fs a cls) (SKey m)). cbn. now rewrite G.
  - unfold patch_object_field. rewrite E. cbn [alloc]. exists (h ++ [OModel (put name v a) cls]), (length h). split; [reflexivity|]. apply New; auto.
    + cbn. apply Forall_app. split; apply Forall_forall; intros x Ix.
      * apply put_parts in Ix as [->|Ix]; auto. apply Bi. cbn. apply in_app_iff. now left.
      * apply Bi. cbn. apply in_app_iff. now right.
    + cbn. now rewrite keys_put_in.
    + cbn. rewrite get_put. now destruct (dec name name).
    + intros [m|m] N; cbn; [|exact I]. rewrite get_put. destruct (dec m name); [congruence|].
      destruct (match get m a with Some v0 => Some v0 | None => get m cls end) eqn:G; [|exact I].
      apply Refl. apply (part_In (OModel a cls) (SKey m)). exact G.
  - unfold patch_object_field. rewrite E. cbn [getattr]. destruct (get name a) as [w|] eqn:G; [|congruence].
    destruct (deepcopy_object h i _ W E) as [hc [o' [Ed [X [Wc [L [Fp P]]]]]]]. rewrite Ed.
    destruct o' as [| | |a' cls'|]; cbn in L; try discriminate. injection L as La Lc. subst cls'.
    unfold setattr. rewrite nth_last, update_snoc. eexists _, _. split; [reflexivity|].
    assert (Gn : get name a' <> None).
    { specialize (P (SKey name)). cbn in P. rewrite G in P. intros Gn. apply get_None in Gn. apply Gn. rewrite La. now apply get_Some_key in G. }
    apply New; auto.
    + cbn in Fp |- *. apply Forall_app in Fp as [Fa Fc]. apply Forall_app. split; [|assumption].
      apply Forall_forall. intros x Ix. apply put_parts in Ix as [->|Ix].
      * eapply below_le; [|exact B]. now apply ext_len.
      * exact (proj1 (Forall_forall _ _) Fa _ Ix).
    + cbn. rewrite keys_put_in by assumption. now rewrite La.
    + cbn. rewrite get_put. now destruct (dec name name).
    + intros [m|m] N; [|exact I]. specialize (P (SKey m)). cbn in P |- *. rewrite get_put. destruct (dec m name); [congruence|]. exact P.
  - cbn in F. congruence.
Qed.

(* ---------- the whole path ---------- *)

Lemma field_path_ext h h' : well_founded_heap h -> extends h h' -> forall names v, field_path h v names -> field_path h' v names.
Proof.
  intros W X. induction names as [|n r IH]; intros v; cbn; [auto|].
  intros [i [o [c [-> [E [O [F P]]]]]]]. exists i, o, c. split; [reflexivity|]. split; [eapply ext_nth; eauto|]. auto.
Qed.

Lemma own_part o n c : own_field o n = Some c -> part o (SKey n) = Some c.
Proof. destruct o; cbn; try discriminate; intros ->; reflexivity. Qed.

Lemma apply_good : forall names v h cur, names <> [] ->
  well_founded_heap h -> below (length h) v -> field_path h cur names ->
  exists h' r, apply_path names v h cur = (h', Some r) /\ extends h h' /\ well_founded_heap h' /\ below (length h') r /\
    (forall q, node h' r (map SKey names ++ q) = node h v q) /\
    (forall q, ~ starts_with (map SKey names) q -> node h' r q = node h cur q).
Proof.
  induction names as [|n names IH]; intros v h cur Ne W B FP; [congruence|].
  cbn in FP. destruct FP as [i [o [c [-> [E [O [F P]]]]]]].
  assert (Fn : own_field o n <> None) by congruence.
  destruct names as [|n2 names].
  - destruct (patch_one_good h i o n v W E O Fn B) as [h' [j [Ep [X [W' [Lj [N0 [N1 N2]]]]]]]].
    exists h', (VRef j). split; [|split; [assumption|split; [assumption|split; [exact Lj|split]]]].
    + cbn [apply_path]. unfold patch_one in Ep. rewrite E in Ep |- *. pose proof (own_part o n c F) as Pn.
      destruct o; cbn [own_field part] in F, Pn; try rewrite Pn; try exact Ep. discriminate.
    + intros q. apply N1.
    + intros [|st q] Nq; [apply N0|]. apply N2. intros ->. apply Nq. exists q. reflexivity.
  - destruct (IH v h c ltac:(discriminate) W B P) as [h1 [c' [Ea [X1 [W1 [B1 [A1 A2]]]]]]].
    pose proof (ext_nth _ _ _ _ X1 E) as E1.
    destruct (patch_one_good h1 i o n c' W1 E1 O Fn B1) as [h' [j [Ep [X [W' [Lj [N0 [N1 N2]]]]]]]].
    assert (Bi : below (length h) (VRef i)) by (cbn; apply nth_error_Some; congruence).
    exists h', (VRef j). split; [|split; [eapply ext_trans; eauto|split; [assumption|split; [exact Lj|split]]]].
    + unfold patch_one in Ep. rewrite E1 in Ep. pose proof (own_part o n c F) as Pn.
      change (apply_path (n :: n2 :: names) v h (VRef i)) with
        (match nth_error h i with
      | Some (OMap d) =>
          match get n d with
          | None => (h, None)
          | Some child =>
                  match apply_path (n2 :: names) v h child with
                  | (h1, Some c) => let (h2, r) := alloc (OMap (put n c d)) h1 in (h2, Some r)
                  | (h1, None) => (h1, None)
                  end
          end
      | Some o =>
          match getattr o n with
          | None => (h, None)
          | Some child =>
                  match apply_path (n2 :: names) v h child with
                  | (h1, Some c) => patch_object_field h1 i n c
                  | (h1, None) => (h1, None)
                  end
          end
      | None => (h, None)
      end).
      rewrite E. destruct o; cbn [own_field part] in F, Pn; try discriminate; rewrite Pn, Ea; exact Ep.
    + intros q. cbn [map app]. rewrite N1. apply A1.
    + intros [|st q] Nq; [rewrite N0; now apply node_ext|].
      assert (D : st = SKey n \/ st <> SKey n).
      { destruct st as [m|m]; [|right; discriminate]. destruct (dec m n); [left; congruence|right; congruence]. }
      destruct D as [->|Nst].
      * rewrite N1. cbn [node]. rewrite E, (own_part o n c F). apply A2. intros [r Er]. apply Nq. exists r. cbn. now rewrite Er.
      * rewrite N2 by assumption. now apply node_ext.
Qed.

(* ---------- the path as a string ---------- *)

Lemma split_dotless s : dotless s -> split_dot s = [s].
Proof.
  induction s as [|c s IH]; intros D; [reflexivity|]. cbn. destruct (ascii_dec c ".") as [->|].
  - exfalso. apply (D ""%string s). reflexivity.
  - rewrite IH; [reflexivity|]. intros a b Eq. apply (D (String c a) b). cbn. cbn in Eq. now rewrite Eq.
Qed.

Lemma split_join s r : dotless s -> split_dot (s ++ String "." r) = s :: split_dot r.
Proof.
  induction s as [|c s IH]; intros D; [reflexivity|]. cbn [String.append split_dot]. destruct (ascii_dec c ".") as [->|].
  - exfalso. apply (D ""%string s). reflexivity.
  - rewrite IH; [reflexivity|]. intros a b Eq. apply (D (String c a) b). cbn. cbn in Eq. now rewrite Eq.
Qed.

Lemma split_concat names : names <> [] -> Forall dotless names -> split_dot (String.concat "." names) = names.
Proof.
  induction names as [|s names IH]; intros Ne F; [congruence|]. inversion F; subst.
  destruct names as [|s2 names]; [cbn; now apply split_dotless|].
  change (String.concat "." (s :: s2 :: names)) with (s ++ "." ++ String.concat "." (s2 :: names))%string.
  cbn [String.append]. rewrite split_join by assumption. rewrite IH; [reflexivity|discriminate|assumption].
Qed.

Lemma concat_nonempty names : names <> [] -> names <> [""%string] -> String.concat "." names <> ""%string.
Proof.
  destruct names as [|s [|s2 names]]; intros A B; [congruence| |].
  - cbn. congruence.
  - change (String.concat "." (s :: s2 :: names)) with (s ++ String "." (String.concat "." (s2 :: names)))%string.
    destruct s; discriminate.
Qed.

Lemma replace_apply h cur names v : names <> [] -> names <> [""%string] -> Forall dotless names ->
  replace_settings_field h cur (String.concat "." names) v = apply_path names v h cur.
Proof.
  intros A B F. pose proof (concat_nonempty names A B) as N. unfold replace_settings_field.
  destruct (String.concat "." names) eqn:Ec; [congruence|]. rewrite <- Ec, split_concat by assumption. reflexivity.
Qed.

Lemma below_node h v : below (length h) v -> node h v [] <> None.
Proof.
  destruct v as [|i]; cbn; [discriminate|]. intros L. destruct (nth_error h i) eqn:E; [discriminate|].
  apply nth_error_None in E. lia.
Qed.

Lemma apply_missing : forall names v h cur, well_founded_heap h -> below (length h) cur ->
  node h cur (map SKey names) = None -> snd (apply_path names v h cur) = None.
Proof.
  induction names as [|n r IH]; intros v h cur W B N; [cbn; destruct cur; reflexivity|].
  destruct cur as [a|i]; [reflexivity|]. cbn [map node] in N. cbn [apply_path].
  destruct (nth_error h i) as [o|] eqn:E; [|reflexivity].
  destruct (part o (SKey n)) as [c|] eqn:Pn.
  - assert (Bc : below (length h) c).
    { eapply below_le; [|eapply part_below; eauto]. cbn in B. lia. }
    destruct r as [|n2 r]; [exfalso; now apply (below_node h c)|].
    specialize (IH v h c W Bc N). destruct (apply_path (n2 :: r) v h c) as [h1 r1] eqn:Ea. cbn [snd] in IH. subst r1.
    destruct o; cbn [part] in Pn; try discriminate; rewrite Pn, Ea; reflexivity.
  - destruct o; cbn [part] in Pn; try rewrite Pn; reflexivity.
Qed.

Lemma apply_not_a_field n v : forall names h cur i fs a cls,
  walk h cur names = Some (VRef i) -> nth_error h i = Some (OData fs a cls) -> ~ In n (map f_name fs) ->
  snd (apply_path (names ++ [n]) v h cur) = None.
Proof.
  induction names as [|m r IH]; intros h cur i fs a cls Wk E N.
  - cbn in Wk. assert (cur = VRef i) as -> by (destruct cur; congruence). cbn [app apply_path]. rewrite E.
    destruct (getattr _ n); [|reflexivity]. unfold patch_object_field. rewrite E.
    apply mem_false in N. now rewrite N.
  - destruct cur as [|j]; [discriminate|]. cbn [walk] in Wk. destruct (nth_error h j) as [o|] eqn:Ej; [|discriminate].
    destruct (part o (SKey m)) as [c|] eqn:Pm; [|discriminate].
    specialize (IH h c i fs a cls Wk E N). cbn [app apply_path]. rewrite Ej.
    destruct (apply_path (r ++ [n]) v h c) as [h1 r1] eqn:Ea. cbn [snd] in IH. subst r1.
    destruct (r ++ [n]) as [|x y] eqn:Er; [destruct r; discriminate|].
    destruct o; cbn [part] in Pm; try discriminate; rewrite Pm, Ea; reflexivity.
Qed.
