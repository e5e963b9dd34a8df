From Coq Require Import String List Arith Bool Lia.
From Verif Require Import Dict SanitizeModel SanitizeSpec.
Import ListNotations.

Section PvInd.
  Context (P : pv -> Prop).
  Hypothesis Hnone : P PNone.
  Hypothesis Hbool : forall b, P (PBool b).
  Hypothesis Hnum : forall n, P (PNum n).
  Hypothesis Hstr : forall s, P (PStr s).
  Hypothesis Henum : forall v, P v -> P (PEnum v).
  Hypothesis Hdict : forall b l, Forall (fun p => P (fst p) /\ P (snd p)) l -> P (PDict b l).
  Hypothesis Hseq : forall k l, Forall P l -> P (PSeq k l).
  Hypothesis Hdata : forall r fs, Forall (fun p => P (snd p)) fs -> P (PData r fs).
  Hypothesis Hobj : forall r c md dc pm, P (PObj r c md dc pm).

  Fixpoint pv_induct (v : pv) : P v :=
    match v with
    | PNone => Hnone
    | PBool b => Hbool b
    | PNum n => Hnum n
    | PStr s => Hstr s
    | PEnum x => Henum x (pv_induct x)
    | PDict b l => Hdict b l ((fix go l : Forall (fun p => P (fst p) /\ P (snd p)) l :=
        match l with [] => Forall_nil _ | (k, x) :: r => Forall_cons (k, x) (conj (pv_induct k) (pv_induct x)) (go r) end) l)
    | PSeq k l => Hseq k l ((fix go l : Forall P l :=
        match l with [] => Forall_nil _ | x :: r => Forall_cons x (pv_induct x) (go r) end) l)
    | PData r fs => Hdata r fs ((fix go l : Forall (fun p => P (snd p)) l :=
        match l with [] => Forall_nil _ | (n, x) :: r => Forall_cons (n, x) (pv_induct x) (go r) end) fs)
    | PObj r c a b d => Hobj r c a b d
    end.
End PvInd.

(* heights *)
Lemma height_seq k l x : In x l -> height x < height (PSeq k l).
Proof.
  cbn [height]. induction l as [|y l IH]; [intros K; destruct K|]. intros [->|I]; [lia|]. specialize (IH I). lia.
Qed.
Lemma height_dict b l p : In p l -> height (snd p) < height (PDict b l).
Proof.
  cbn [height]. induction l as [|[k y] l IH]; [intros K; destruct K|]. intros [<-|I]; cbn [snd]; [lia|]. specialize (IH I). lia.
Qed.
Lemma height_data r l p : In p l -> S (height (snd p)) < height (PData r l).
Proof.
  cbn [height]. induction l as [|[k y] l IH]; [intros K; destruct K|]. intros [<-|I]; cbn [snd]; [lia|]. specialize (IH I). lia.
Qed.
Lemma height_dict_le b l n : (forall p, In p l -> height (snd p) <= n) -> height (PDict b l) <= S n.
Proof.
  cbn [height]. induction l as [|[k y] l IH]; intros H; [lia|]. pose proof (H (k, y) (or_introl eq_refl)) as K. cbn in K.
  specialize (IH (fun p I => H p (or_intror I))). lia.
Qed.
Lemma height_seq_le k l n : (forall x, In x l -> height x <= n) -> height (PSeq k l) <= S n.
Proof.
  cbn [height]. induction l as [|y l IH]; intros H; [lia|]. pose proof (H y (or_introl eq_refl)) as K.
  specialize (IH (fun p I => H p (or_intror I))). lia.
Qed.

(* asdict, as relations on lists *)
Lemma asdict_data r fs d : asdict (PData r fs) = Some d ->
  exists items, d = PDict true items /\ Forall2 (fun f p => fst p = PStr (fst f) /\ asdict (snd f) = Some (snd p)) fs items.
Proof.
  cbn [asdict]. intros E.
  assert (G : forall items, (fix go (l : list (string * pv)) : option (list (pv * pv)) :=
            match l with
            | [] => Some []
            | (n, x) :: r =>
                match asdict x, go r with
                | Some x', Some r' => Some ((PStr n, x') :: r')
                | _, _ => None
                end
            end) fs = Some items -> Forall2 (fun f p => fst p = PStr (fst f) /\ asdict (snd f) = Some (snd p)) fs items).
  { clear E. induction fs as [|[n x] fs IH]; intros items E; [injection E as <-; constructor|].
    destruct (asdict x) eqn:Ex; [|discriminate]. match type of E with match ?g with _ => _ end = _ => destruct g as [r'|] eqn:Er end; [|discriminate].
    injection E as <-. constructor; [cbn; auto|]. now apply IH. }
  match type of E with option_map _ ?g = _ => destruct g as [items|] eqn:Ei end; [|discriminate].
  injection E as <-. exists items. split; [reflexivity|]. now apply G.
Qed.

Lemma asdict_seq k l d : k = KList \/ k = KTuple -> asdict (PSeq k l) = Some d ->
  exists items, d = PSeq k items /\ Forall2 (fun f p => asdict f = Some p) l items.
Proof.
  intros K E.
  assert (G : forall items, (fix go (l : list pv) : option (list pv) :=
            match l with
            | [] => Some []
            | x :: r => match asdict x, go r with Some x', Some r' => Some (x' :: r') | _, _ => None end
            end) l = Some items -> Forall2 (fun f p => asdict f = Some p) l items).
  { clear E. induction l as [|x l IH]; intros items E; [injection E as <-; constructor|].
    destruct (asdict x) eqn:Ex; [|discriminate]. match type of E with match ?g with _ => _ end = _ => destruct g as [r'|] eqn:Er end; [|discriminate].
    injection E as <-. constructor; [assumption|]. now apply IH. }
  destruct K as [-> | ->]; cbn [asdict] in E;
  (match type of E with option_map _ ?g = _ => destruct g as [items|] eqn:Ei end; [|discriminate];
  injection E as <-; exists items; split; [reflexivity|]; now apply G).
Qed.

Lemma asdict_dict l d : asdict (PDict true l) = Some d ->
  exists items, d = PDict true items /\
    Forall2 (fun f p => asdict (fst f) = Some (fst p) /\ asdict (snd f) = Some (snd p) /\ hashable (fst p) = true) l items.
Proof.
  intros E.
  assert (G : forall items, (fix go (l : list (pv * pv)) : option (list (pv * pv)) :=
            match l with
            | [] => Some []
            | (k, x) :: r =>
                match asdict k, asdict x, go r with
                | Some k', Some x', Some r' => if hashable k' then Some ((k', x') :: r') else None
                | _, _, _ => None
                end
            end) l = Some items ->
     Forall2 (fun f p => asdict (fst f) = Some (fst p) /\ asdict (snd f) = Some (snd p) /\ hashable (fst p) = true) l items).
  { clear E. induction l as [|[k x] l IH]; intros items E; [injection E as <-; constructor|].
    destruct (asdict k) eqn:Ek; [|discriminate]. destruct (asdict x) eqn:Ex; [|discriminate].
    match type of E with match ?g with _ => _ end = _ => destruct g as [r'|] eqn:Er end; [|discriminate].
    destruct (hashable p) eqn:Eh; [|discriminate].
    injection E as <-. constructor; [cbn; auto|]. now apply IH. }
  cbn [asdict] in E.
  match type of E with option_map _ ?g = _ => destruct g as [items|] eqn:Ei end; [|discriminate].
  injection E as <-; exists items; split; [reflexivity|]; now apply G.
Qed.

Lemma asdict_other v d : match v with PData _ _ | PSeq KList _ | PSeq KTuple _ | PDict true _ => False | _ => True end ->
  asdict v = Some d -> d = v.
Proof.
  destruct v as [| | | | |b l|k l| |]; try contradiction; intros H E;
    try (destruct b; [contradiction|]); try (destruct k; try contradiction); cbn [asdict] in E;
    match type of E with (if ?c then _ else _) = _ => destruct c end; congruence.
Qed.

Lemma F2_In_r {A B} (R : A -> B -> Prop) l l' y : Forall2 R l l' -> In y l' -> exists x, In x l /\ R x y.
Proof.
  induction 1; [intros K; destruct K|]. intros [<-|I]; [exists x; split; [now left|assumption]|].
  destruct (IHForall2 I) as [x' [I' R']]. exists x'. split; [now right|assumption].
Qed.

Lemma asdict_height : forall v d, asdict v = Some d -> height d <= height v /\ (match v with PData _ _ => height d < height v | _ => True end).
Proof.
  induction v using pv_induct; intros d E;
    try (apply asdict_other in E; [subst d; split; [lia|exact I]|exact I]).
  - destruct b; [|apply asdict_other in E; [subst d; split; [lia|exact I]|exact I]].
    apply asdict_dict in E as [items [-> F]]. split; [|exact I].
    cbn [height]. clear - H F. revert items F. induction l as [|[k x] l IH]; intros items F; inversion F; subst; [lia|].
    inversion H; subst. destruct y as [k' x']. cbn in *. destruct H2 as [_ [E _]]. apply (proj2 H3) in E as [E _].
    specialize (IH H5 _ H4). lia.
  - destruct k; try (apply asdict_other in E; [subst d; split; [lia|exact I]|exact I]).
    + apply asdict_seq in E as [items [-> F]]; [|auto]. split; [|exact I].
      cbn [height]. clear - H F. revert items F. induction l as [|x l IH]; intros items F; inversion F; subst; [lia|].
      inversion H; subst. apply H3 in H2 as [E _]. specialize (IH H5 _ H4). lia.
    + apply asdict_seq in E as [items [-> F]]; [|auto]. split; [|exact I].
      cbn [height]. clear - H F. revert items F. induction l as [|x l IH]; intros items F; inversion F; subst; [lia|].
      inversion H; subst. apply H3 in H2 as [E _]. specialize (IH H5 _ H4). lia.
  - apply asdict_data in E as [items [-> F]].
    assert (K : height (PDict true items) < height (PData r fs)); [|split; [lia|exact K]].
    cbn [height]. clear - H F. revert items F. induction fs as [|[k x] l IH]; intros items F; inversion F; subst; [lia|].
    inversion H; subst. destruct y as [k' x']. cbn in *. destruct H2 as [_ E]. apply H3 in E as [E _].
    specialize (IH H5 _ H4). lia.
Qed.

(* build_dict *)
Lemma build_keys l : NoDup (map fst (fold_left (fun (d : list (string * pv)) p => put (fst p) (snd p) d) l [])).
Proof.
  assert (G : forall (d : list (string * pv)), NoDup (map fst d) -> NoDup (map fst (fold_left (fun d p => put (fst p) (snd p) d) l d))).
  { induction l as [|p l IH]; intros d N; [assumption|]. cbn. apply IH. now apply (NoDup_keys_put (fst p) (snd p) d). }
  apply G. constructor.
Qed.

Lemma build_values (Q : pv -> Prop) l : Forall (fun p => Q (snd p)) l ->
  Forall (fun p => Q (snd p)) (fold_left (fun (d : list (string * pv)) p => put (fst p) (snd p) d) l []).
Proof.
  assert (P : forall (d : list (string * pv)) k v, Q v -> Forall (fun p => Q (snd p)) d -> Forall (fun p => Q (snd p)) (put k v d)).
  { induction d as [|[k' v'] d IH]; intros k v Qv F; cbn; [repeat constructor; assumption|]. inversion F; subst.
    destruct (dec k k'); constructor; auto. }
  assert (G : forall (d : list (string * pv)), Forall (fun p => Q (snd p)) l -> Forall (fun p => Q (snd p)) d ->
     Forall (fun p => Q (snd p)) (fold_left (fun d p => put (fst p) (snd p) d) l d)).
  { induction l as [|p l IH]; intros d F1 F2; [assumption|]. inversion F1; subst. cbn. apply IH; [assumption|]. now apply P. }
  intros F. apply G; [assumption|constructor].
Qed.

Lemma build_distinct l : NoDup (map fst l) -> fold_left (fun (d : list (string * pv)) p => put (fst p) (snd p) d) l [] = l.
Proof.
  assert (G : forall d, NoDup (map fst (d ++ l)) -> fold_left (fun (d : list (string * pv)) p => put (fst p) (snd p) d) l d = d ++ l).
  { induction l as [|[k v] l IH]; intros d N; cbn [fold_left fst snd]; [now rewrite app_nil_r|].
    rewrite put_absent.
    - rewrite IH; [now rewrite <- app_assoc|]. now rewrite <- app_assoc.
    - rewrite map_app in N. cbn in N. apply NoDup_remove_2 in N. intros I. apply N. apply in_app_iff. now left. }
  intros N. now apply (G []).
Qed.

Section WithStr.
Context (str_of : pv -> string).
Notation san := (sanitize_upto str_of).

Lemma san_plain : forall n v, height v <= n -> plain (san n v).
Proof.
  induction n as [|n IH]; intros v H.
  - destruct v; cbn [height] in H; try lia; cbn; constructor.
  - destruct v; cbn [sanitize_upto]; try solve [constructor].
    + apply IH. cbn in H. lia.
    + unfold build_dict. apply plain_dict; [apply build_keys|]. apply build_values. apply Forall_forall.
      intros p Ip. apply in_map_iff in Ip as [q [<- Iq]]. cbn. apply IH. pose proof (height_dict isd items q Iq). lia.
    + apply plain_list. apply Forall_forall. intros x Ix. apply in_map_iff in Ix as [y [<- Iy]]. apply IH. pose proof (height_seq k l y Iy). lia.
    + destruct (asdict (PData repr fields)) as [d|] eqn:E; [|constructor].
      apply asdict_height in E as [_ E]. apply IH. lia.
Qed.

Lemma san_id : forall n v, height v <= n -> plain v -> san n v = v.
Proof.
  induction n as [|n IH]; intros v H P.
  - destruct P; try reflexivity; cbn [height] in H; lia.
  - destruct P as [| | | |l F|d N F]; try reflexivity.
    + cbn [sanitize_upto]. f_equal. rewrite <- (map_id l) at 2. apply map_ext_in. intros x Ix. apply IH.
      * pose proof (height_seq KList l x Ix). lia.
      * exact (proj1 (Forall_forall _ _) F x Ix).
    + cbn [sanitize_upto]. f_equal. rewrite map_map. unfold build_dict. cbn [fst snd str_key].
      assert (Em : map (fun x : string * pv => (fst x, san n (snd x))) d = d).
      { rewrite <- (map_id d) at 2. apply map_ext_in. intros [k x] Ix. cbn [fst snd]. f_equal. apply IH.
        - pose proof (height_dict true _ (PStr k, x) (in_map (fun p => (PStr (fst p), snd p)) _ _ Ix)) as K. cbn [snd] in K. lia.
        - exact (proj1 (Forall_forall _ _) F _ Ix). }
      rewrite Em, build_distinct by assumption. reflexivity.
Qed.

Lemma san_stable : forall n m v, height v <= n -> height v <= m -> san n v = san m v.
Proof.
  induction n as [|n IH]; intros m v H1 H2.
  - destruct v; cbn [height] in H1; try lia; destruct m; reflexivity.
  - destruct m as [|m].
    { destruct v; cbn [height] in H2; try lia; reflexivity. }
    destruct v; cbn [sanitize_upto]; try reflexivity.
    + apply IH; cbn in *; lia.
    + do 2 f_equal. apply map_ext_in. intros p Ip. f_equal. pose proof (height_dict isd items p Ip). apply IH; lia.
    + f_equal. apply map_ext_in. intros p Ip. pose proof (height_seq k l p Ip). apply IH; lia.
    + destruct (asdict (PData repr fields)) as [d|] eqn:E; [|reflexivity]. apply asdict_height in E as [_ E]. apply IH; lia.
Qed.

Lemma san_eq n v : height v <= n -> san n v = sanitize str_of v.
Proof. intros H. now apply san_stable. Qed.

(** A key that survives asdict is unchanged by it. *)
Lemma asdict_key : forall k k', asdict k = Some k' -> hashable k' = true -> k' = k.
Proof.
  induction k using pv_induct; intros k' E Hh; try (now apply asdict_other in E).
  - destruct b; [|now apply asdict_other in E]. apply asdict_dict in E as [items [-> _]]. discriminate.
  - destruct k; try (now apply asdict_other in E).
    + apply asdict_seq in E as [items [-> _]]; [discriminate|auto].
    + apply asdict_seq in E as [items [-> F]]; [|auto]. f_equal. revert items F Hh.
      induction l as [|x l IHl]; intros items F Hh; inversion F; subst; [reflexivity|].
      inversion H; subst. cbn [hashable] in Hh. apply andb_true_iff in Hh as [Hx Hr]. f_equal; [now apply H3|]. now apply IHl.
  - apply asdict_data in E as [items [-> _]]. discriminate.
Qed.

Lemma sanitize_asdict : forall v d, asdict v = Some d -> sanitize str_of d = sanitize str_of v.
Proof.
  induction v using pv_induct; intros d E; try (now apply asdict_other in E as ->).
  - destruct b; [|now apply asdict_other in E as ->].
    pose proof (asdict_height _ _ E) as [Hh _].
    apply asdict_dict in E as [items [-> F]]. unfold sanitize at 1. rewrite (san_stable _ (height (PDict true l))) by lia.
    unfold sanitize. destruct (height (PDict true l)) as [|n] eqn:En; [discriminate|]. cbn [sanitize_upto]. do 2 f_equal.
    assert (Hl : forall p, In p l -> height (snd p) <= n) by (intros p Ip; pose proof (height_dict true l p Ip); lia).
    clear En Hh. revert items F. induction l as [|[k x] l IHl]; intros items F; inversion F; subst; [reflexivity|].
    inversion H; subst. destruct y as [k' x']. cbn in *. destruct H2 as [Ek [Ex Hk]]. pose proof (asdict_key _ _ Ek Hk) as ->.
    f_equal; [f_equal|].
    + pose proof (proj1 (asdict_height _ _ Ex)). pose proof (Hl (k, x) (or_introl eq_refl)). cbn in *.
      rewrite !san_eq by lia. now apply H3.
    + apply IHl; auto.
  - assert (G : forall k', k' = KList \/ k' = KTuple -> asdict (PSeq k' l) = Some d -> sanitize str_of d = sanitize str_of (PSeq k' l)).
    { clear E. intros k' K E. pose proof (asdict_height _ _ E) as [Hh _]. apply asdict_seq in E as [items [-> F]]; [|assumption].
      unfold sanitize at 1. rewrite (san_stable _ (height (PSeq k' l))) by lia.
      unfold sanitize. destruct (height (PSeq k' l)) as [|n] eqn:En; [discriminate|]. cbn [sanitize_upto]. f_equal.
      assert (Hl : forall p, In p l -> height p <= n) by (intros p Ip; pose proof (height_seq k' l p Ip); lia).
      clear En Hh. revert items F. induction l as [|x l IHl]; intros items F; inversion F; subst; [reflexivity|].
      inversion H; subst. cbn. f_equal.
      - pose proof (proj1 (asdict_height _ _ H2)). pose proof (Hl x (or_introl eq_refl)). rewrite !san_eq by lia. now apply H3.
      - apply IHl; auto. intros p Ip. apply Hl. now right. }
    destruct k; try (now apply asdict_other in E as ->); apply G; auto.
  - (* a dataclass: _sanitize does just that *)
    pose proof (asdict_height _ _ E) as [_ Hh]. unfold sanitize at 2.
    destruct (height (PData r fs)) as [|n] eqn:En; [lia|]. cbn [sanitize_upto]. rewrite E. symmetry. apply san_eq. lia.
Qed.

(** The structured form of a dataclass, field by field. *)
Lemma structured_data r fs d : settings_structured_value str_of (PData r fs) = Some d -> NoDup (map fst fs) ->
  d = PDict true (map (fun f => (PStr (fst f), sanitize str_of (snd f))) fs).
Proof.
  cbn [settings_structured_value]. destruct (asdict (PData r fs)) as [x|] eqn:E; [|discriminate]. intros [= <-] N.
  apply asdict_data in E as [items [-> F]].
  unfold sanitize at 1. destruct (height (PDict true items)) as [|n] eqn:En; [discriminate|]. cbn [sanitize_upto]. f_equal.
  assert (Em : map (fun p => (str_key str_of (fst p), san n (snd p))) items = map (fun f => (fst f, sanitize str_of (snd f))) fs).
  { assert (Hl : forall p, In p items -> height (snd p) <= n) by (intros p Ip; pose proof (height_dict true items p Ip); lia).
    clear En N. induction F as [|[m x] [k y] fs items [Ek Ex] F IH]; [reflexivity|]. cbn in *. subst k. cbn. f_equal.
    - f_equal. rewrite san_eq by apply (Hl (PStr m, y) (or_introl eq_refl)). now apply sanitize_asdict.
    - apply IH. auto. }
  rewrite Em. unfold build_dict. rewrite build_distinct; [now rewrite map_map|]. now rewrite map_map.
Qed.

Lemma structured_plain v d : settings_structured_value str_of v = Some d -> plain d /\ is_dict d.
Proof.
  assert (G : forall l, plain (sanitize str_of (PDict true l)) /\ is_dict (sanitize str_of (PDict true l))).
  { intros l. split; [now apply san_plain|]. unfold sanitize. destruct (height (PDict true l)) eqn:En; [discriminate|]. eexists. reflexivity. }
  destruct v; cbn [settings_structured_value]; try discriminate.
  - intros [= <-]. apply G.
  - destruct (asdict (PData repr fields)) as [x|] eqn:E; [|discriminate]. intros [= <-].
    apply asdict_data in E as [items [-> _]]. apply G.
  - destruct model_dump; [intros [= <-]; apply G|]. destruct dict_; [intros [= <-]; apply G|].
    destruct param; [intros [= <-]; apply G|discriminate].
Qed.

End WithStr.
