(** Lemmas for ClassProps.v. *)
From Coq Require Import String List Bool Arith Lia.
From Verif Require Import Dict ClassModel ClassSpec.
Import ListNotations.

(* ---- subsequences ---- *)

Inductive subseq : list nat -> list nat -> Prop :=
| sub_nil r : subseq [] r
| sub_keep x l r : subseq l r -> subseq (x :: l) (x :: r)
| sub_skip x l r : subseq l r -> subseq l (x :: r).

Lemma subseq_In l r x : subseq l r -> In x l -> In x r.
Proof. induction 1; cbn; intuition. Qed.

(* ---- the merge ---- *)

Lemma good_head_In all ls h : good_head all ls = Some h -> exists l, In (h :: l) ls.
Proof.
  induction ls as [|[|x l] ls IH]; cbn; [discriminate| |].
  - intros E. destruct (IH E) as [l I]. eauto.
  - destruct (existsb _ all); [intros E; destruct (IH E) as [l' I]; eauto|]. intros [= ->]. eauto.
Qed.

Lemma good_head_tail all ls h : good_head all ls = Some h -> forall l, In l all -> ~ In h (tl l).
Proof.
  induction ls as [|[|x l] ls IH]; cbn; [discriminate|exact IH|].
  destruct (existsb (fun l => mem x (tl l)) all) eqn:E; [exact IH|]. intros [= ->] l' I T.
  assert (existsb (fun l => mem h (tl l)) all = true); [|congruence].
  apply existsb_exists. exists l'. split; [assumption|now apply mem_In].
Qed.

Lemma all_empty_nil ls l : all_empty ls = true -> In l ls -> l = [].
Proof.
  unfold all_empty. rewrite forallb_forall. intros A I. specialize (A l I). now destruct l.
Qed.

Lemma merge_spec fuel : forall ls r, merge fuel ls = Some r ->
  (forall l, In l ls -> NoDup l) ->
  NoDup r /\ (forall l, In l ls -> subseq l r) /\ (forall x, In x r -> exists l, In l ls /\ In x l).
Proof.
  induction fuel as [|fuel IH]; intros ls r E ND; cbn in E.
  - destruct (all_empty ls) eqn:A; [|discriminate]. injection E as <-.
    split; [constructor|]. split; [|cbn; tauto]. intros l I. rewrite (all_empty_nil _ _ A I). constructor.
  - destruct (all_empty ls) eqn:A.
    { injection E as <-. split; [constructor|]. split; [|cbn; tauto].
      intros l I. rewrite (all_empty_nil _ _ A I). constructor. }
    destruct (good_head ls ls) as [h|] eqn:G; [|discriminate].
    destruct (merge fuel (map (drop_head h) ls)) as [r'|] eqn:M; [|discriminate]. injection E as <-.
    pose proof (good_head_tail _ _ _ G) as T.
    assert (NH : forall l, In l ls -> ~ In h (drop_head h l)).
    { intros l I J. pose proof (ND l I) as D. pose proof (T l I) as T'. destruct l as [|x l]; cbn in *; [tauto|].
      destruct (dec x h); [tauto|]. destruct J as [J|J]; tauto. }
    destruct (IH _ _ M) as [N1 [N2 N3]].
    { intros l I. apply in_map_iff in I as [l0 [<- I]]. pose proof (ND l0 I) as D. destruct l0 as [|x l0]; [constructor|].
      cbn. destruct (dec x h); [now inversion D|assumption]. }
    split; [constructor; [|assumption]|split].
    + intros I. destruct (N3 _ I) as [l [I1 I2]]. apply in_map_iff in I1 as [l0 [<- I1]]. exact (NH _ I1 I2).
    + intros l I. assert (S : subseq (drop_head h l) r') by (apply N2; apply in_map; assumption).
      destruct l as [|x l]; [constructor|]. cbn in S. destruct (dec x h) as [->|]; [now constructor|now constructor].
    + intros x [<-|I].
      * destruct (good_head_In _ _ _ G) as [l I]. exists (h :: l). cbn; tauto.
      * destruct (N3 _ I) as [l [I1 I2]]. apply in_map_iff in I1 as [l0 [<- I1]]. exists l0. split; [assumption|].
        destruct l0 as [|y l0]; [destruct I2|]. cbn in I2. destruct (dec y h); [now right|assumption].
Qed.

(* ---- registries ---- *)

Lemma NoDup_keys_fold_put (l d : list (string * nat)) : NoDup (keys d) ->
  NoDup (keys (fold_left (fun d e => put (fst e) (snd e) d) l d)).
Proof. revert d. induction l as [|e l IH]; cbn; intros d D; [assumption|]. apply IH. now apply NoDup_keys_put. Qed.

Lemma get_fold_put n (l d : list (string * nat)) : NoDup (keys l) ->
  get n (fold_left (fun d e => put (fst e) (snd e) d) l d) =
  match get n l with Some x => Some x | None => get n d end.
Proof.
  revert d. induction l as [|[m x] l IH]; cbn; intros d D; [reflexivity|].
  inversion D as [|? ? N D']; subst. rewrite IH by assumption. rewrite get_put.
  destruct (dec n m) as [->|]; [|reflexivity].
  apply get_None in N. rewrite N. reflexivity.
Qed.

Lemma NoDup_keys_declare pick fields d : NoDup (keys d) -> NoDup (keys (declare pick fields d)).
Proof.
  unfold declare. revert d. induction fields as [|f l IH]; cbn; intros d D; [assumption|]. apply IH.
  destruct (pick (snd f)); [now apply NoDup_keys_put|assumption].
Qed.

Lemma get_declare pick fields d n : NoDup (keys fields) ->
  get n (declare pick fields d) =
  match get n fields with
  | Some v => match pick v with Some x => Some x | None => get n d end
  | None => get n d
  end.
Proof.
  unfold declare. revert d. induction fields as [|[m v] l IH]; cbn; intros d D; [reflexivity|].
  inversion D as [|? ? N D']; subst. rewrite IH by assumption. apply get_None in N.
  destruct (dec n m) as [->|NE].
  - rewrite N. destruct (pick v); [|reflexivity]. now rewrite get_put_eq.
  - destruct (pick v); [|reflexivity]. rewrite get_put_neq by assumption. reflexivity.
Qed.

Definition inherit_from (w : world) (reg : class -> list (string * nat)) (bases : list nat) (d : list (string * nat)) :=
  fold_left (fun d b => match class_of w b with
                        | Some c => fold_left (fun d e => put (fst e) (snd e) d) (reg c) d
                        | None => d
                        end) bases d.

Lemma NoDup_keys_inherit_from w reg bases d : NoDup (keys d) -> NoDup (keys (inherit_from w reg bases d)).
Proof.
  unfold inherit_from. revert d. induction bases as [|b l IH]; cbn; intros d D; [assumption|]. apply IH.
  destruct (class_of w b); [now apply NoDup_keys_fold_put|assumption].
Qed.

(** The entries of the bases. *)
Definition base_entry (w : world) (reg : class -> list (string * nat)) (n : string) (b : nat) : option nat :=
  match class_of w b with Some c => get n (reg c) | None => None end.

Lemma inherit_source w reg n : (forall b c, class_of w b = Some c -> NoDup (keys (reg c))) ->
  forall bases d x, get n (inherit_from w reg bases d) = Some x ->
  get n d = Some x \/ exists b, In b bases /\ base_entry w reg n b = Some x.
Proof.
  intros ND. unfold inherit_from. induction bases as [|b l IH]; cbn; intros d x E; [now left|].
  apply IH in E as [E|[b' [I E]]]; [|right; eauto].
  destruct (class_of w b) as [c|] eqn:C; [|now left].
  rewrite get_fold_put in E by eauto. destruct (get n (reg c)) eqn:G; [|now left].
  right. exists b. split; [now left|]. unfold base_entry. rewrite C. congruence.
Qed.

Lemma inherit_agree w reg n x : (forall b c, class_of w b = Some c -> NoDup (keys (reg c))) ->
  forall bases d, (forall b y, In b bases -> base_entry w reg n b = Some y -> y = x) ->
  (get n d = Some x \/ exists b, In b bases /\ base_entry w reg n b = Some x) ->
  get n (inherit_from w reg bases d) = Some x.
Proof.
  intros ND. unfold inherit_from. induction bases as [|b l IH]; cbn; intros d A H.
  - destruct H as [H|[b [[] _]]]. exact H.
  - apply IH; [intros; eapply A; [right|]; eassumption|].
    destruct (class_of w b) as [c|] eqn:C.
    + destruct (get n (reg c)) as [y|] eqn:G.
      * left. rewrite get_fold_put by eauto. rewrite G. f_equal. apply (A b); [now left|]. unfold base_entry. now rewrite C.
      * destruct H as [H|[b' [[<-|I] E]]].
        -- left. rewrite get_fold_put by eauto. now rewrite G.
        -- unfold base_entry in E. rewrite C in E. congruence.
        -- right. eauto.
    + destruct H as [H|[b' [[<-|I] E]]]; [now left| |right; eauto].
      unfold base_entry in E. rewrite C in E. discriminate.
Qed.

(* ---- the invariant ---- *)

Definition registry (w : world) (ok : meta -> bool) (pick : value -> option nat) (reg : class -> list (string * nat)) (c : class) : Prop :=
  reg c = if ok (k_meta c) then declare pick (with_annotations (k_stmt c)) (inherit_from w reg (k_bases c) []) else [].

Record class_ok (w : world) (k : nat) (c : class) : Prop := {
  co_fields : NoDup (keys (k_fields c));
  co_bases : forall b, In b (k_bases c) -> b < k /\ exists cb, class_of w b = Some cb /\ meta_le (k_meta cb) (k_meta c);
  co_mro : exists r, k_mro c = k :: r /\ NoDup r /\
    (forall x, In x r -> exists b, In b (k_bases c) /\ In x (mro_of w b)) /\
    (forall b, In b (k_bases c) -> subseq (mro_of w b) r);
  co_streams : registry w is_component pick_stream k_streams c;
  co_tasks : registry w is_unit pick_task k_tasks c;
  co_threads : registry w is_unit pick_thread k_threads c;
  co_components : registry w is_collection pick_component k_components c;
  co_main : if is_unit (k_meta c)
            then exists bm, base_main w (k_bases c) None = Some bm /\ k_main c = own_main (with_annotations (k_stmt c)) bm
            else k_main c = None;
  co_settings : k_settings c = if is_component (k_meta c)
      then final_type k_settings w (tl (k_mro c)) ez_settings (own_type "SETTINGS" (with_annotations (k_stmt c))) else None;
  co_state : k_state c = if is_component (k_meta c)
      then final_type k_state w (tl (k_mro c)) ez_state (own_type "STATE" (with_annotations (k_stmt c))) else None
}.

Definition inv (w : world) : Prop := forall k c, class_of w k = Some c -> class_ok w k c.

Lemma NoDup_with_annotations s : NoDup (keys (st_fields s)) -> NoDup (keys (with_annotations s)).
Proof.
  unfold with_annotations. intros D. destruct (st_ann_settings s), (st_ann_state s);
    repeat apply NoDup_keys_put; assumption.
Qed.

Lemma registry_NoDup w ok pick reg c : registry w ok pick reg c -> NoDup (keys (reg c)).
Proof.
  intros ->. destruct (ok _); [|constructor]. apply NoDup_keys_declare. apply NoDup_keys_inherit_from. constructor.
Qed.

(* Classes are only added: what is said of earlier ones stays true. *)
Definition extends (w w' : world) : Prop := forall k c, class_of w k = Some c -> class_of w' k = Some c.

Lemma class_of_lt w k c : class_of w k = Some c -> k < List.length (w_classes w).
Proof. intros E. apply nth_error_Some. unfold class_of in E. congruence. Qed.

Lemma fold_left_ext_in {A B} (f g : A -> B -> A) l : (forall a b, In b l -> f a b = g a b) ->
  forall a, fold_left f l a = fold_left g l a.
Proof.
  intros H. induction l as [|b l IH]; intros a; cbn; [reflexivity|].
  rewrite H by now left. apply IH. intros; apply H; now right.
Qed.

Lemma mro_of_extends w w' b : extends w w' -> (exists c, class_of w b = Some c) -> mro_of w' b = mro_of w b.
Proof. intros X [c C]. unfold mro_of. rewrite C, (X _ _ C). reflexivity. Qed.

Lemma inherit_from_extends w w' reg bases d : extends w w' -> (forall b, In b bases -> exists c, class_of w b = Some c) ->
  inherit_from w' reg bases d = inherit_from w reg bases d.
Proof.
  intros X H. unfold inherit_from. apply fold_left_ext_in. intros a b I. destruct (H b I) as [c C]. now rewrite C, (X _ _ C).
Qed.

Lemma base_main_extends w w' bases m : extends w w' -> (forall b, In b bases -> exists c, class_of w b = Some c) ->
  base_main w' bases m = base_main w bases m.
Proof.
  intros X. revert m. induction bases as [|b l IH]; intros m H; cbn; [reflexivity|].
  destruct (H b (or_introl eq_refl)) as [c C]. rewrite C, (X _ _ C).
  destruct (k_meta c); try (apply IH; intros; apply H; now right).
  destruct m, (k_main c); try reflexivity; apply IH; intros; apply H; now right.
Qed.

Lemma lookup_type_extends own w w' l : extends w w' -> (forall b, In b l -> exists c, class_of w b = Some c) ->
  lookup_type own w' l = lookup_type own w l.
Proof.
  intros X. induction l as [|b l IH]; intros H; cbn; [reflexivity|].
  destruct (H b (or_introl eq_refl)) as [c C]. rewrite C, (X _ _ C). destruct (own c); [reflexivity|].
  apply IH. intros; apply H; now right.
Qed.

Lemma mro_classes w : inv w -> forall k c, class_of w k = Some c -> forall x, In x (k_mro c) -> exists cx, class_of w x = Some cx.
Proof.
  intros I k. induction k as [k IH] using (well_founded_induction lt_wf). intros c C x X.
  destruct (co_mro _ _ _ (I _ _ C)) as [r [E [_ [M _]]]]. rewrite E in X. destruct X as [<-|X]; [eauto|].
  destruct (M _ X) as [b [Ib Xb]]. destruct (co_bases _ _ _ (I _ _ C) b Ib) as [L [cb [Cb _]]].
  unfold mro_of in Xb. rewrite Cb in Xb. exact (IH b L cb Cb x Xb).
Qed.

Lemma class_ok_extends w w' k c : inv w -> extends w w' -> class_of w k = Some c -> class_ok w k c -> class_ok w' k c.
Proof.
  intros IV X C O. pose proof (mro_classes w IV k c C) as MC. destruct O as [O1 O2 O3 O4 O5 O6 O7 O8 O9 O10].
  assert (B : forall b, In b (k_bases c) -> exists cb, class_of w b = Some cb).
  { intros b Ib. destruct (O2 b Ib) as [_ [cb [Cb _]]]. eauto. }
  assert (T : forall b, In b (tl (k_mro c)) -> exists cb, class_of w b = Some cb).
  { intros b Ib. apply MC. destruct (k_mro c); [destruct Ib|now right]. }
  split.
  - assumption.
  - intros b Ib. destruct (O2 b Ib) as [L [cb [Cb M]]]. split; [assumption|]. exists cb. split; [now apply X|assumption].
  - destruct O3 as [r [E [N [M S]]]]. exists r. split; [assumption|]. split; [assumption|]. split.
    + intros x Ix. destruct (M x Ix) as [b [Ib Xb]]. exists b. split; [assumption|]. rewrite (mro_of_extends w w'); auto.
    + intros b Ib. rewrite (mro_of_extends w w'); auto.
  - unfold registry. rewrite (inherit_from_extends w w'); auto.
  - unfold registry. rewrite (inherit_from_extends w w'); auto.
  - unfold registry. rewrite (inherit_from_extends w w'); auto.
  - unfold registry. rewrite (inherit_from_extends w w'); auto.
  - rewrite (base_main_extends w w'); auto.
  - rewrite O9. unfold final_type. now rewrite (lookup_type_extends k_settings w w').
  - rewrite O10. unfold final_type. now rewrite (lookup_type_extends k_state w w').
Qed.

Lemma lookup_nth {A} (l : list A) x k y : nth_error (l ++ [x]) k = Some y ->
  nth_error l k = Some y \/ (k = List.length l /\ y = x).
Proof.
  intros E. destruct (lt_eq_lt_dec k (List.length l)) as [[L|L]|L].
  - left. now rewrite nth_error_app1 in E.
  - right. subst. rewrite nth_error_app2, Nat.sub_diag in E by lia. cbn in E. split; congruence.
  - rewrite nth_error_app2 in E by lia. destruct (k - List.length l) as [|m] eqn:D; [lia|]. cbn in E. now destruct m.
Qed.

(* What defining does: nothing to the classes, or one more that is as it should be. *)
Lemma define_cases w s : inv w -> accepted w s ->
  (w_classes (fst (define w s)) = w_classes w /\ snd (define w s) = None) \/
  (exists c, w_classes (fst (define w s)) = w_classes w ++ [c] /\ snd (define w s) = Some (List.length (w_classes w)) /\
     k_stmt c = s /\ class_ok w (List.length (w_classes w)) c).
Proof.
  intros IV [D [NB B]]. unfold define.
  destruct (linearize w (List.length (w_classes w)) (st_bases s)) as [mro|] eqn:L; [|now left].
  assert (LL : exists r, mro = List.length (w_classes w) :: r /\ NoDup r /\
     (forall x, In x r -> exists b, In b (st_bases s) /\ In x (mro_of w b)) /\
     (forall b, In b (st_bases s) -> subseq (mro_of w b) r)).
  { unfold linearize in L. destruct (merge _ _) as [r|] eqn:M; [|discriminate]. injection L as <-.
    exists r. split; [reflexivity|].
    assert (SELF : forall b, In b (st_bases s) -> In b (mro_of w b) /\ NoDup (mro_of w b)).
    { intros b Ib. destruct (B b Ib) as [cb [Cb _]]. unfold mro_of. rewrite Cb.
      destruct (co_mro _ _ _ (IV _ _ Cb)) as [r0 [E [N [M0 _]]]]. rewrite E. split; [now left|]. constructor; [|assumption].
      intros I0. destruct (M0 _ I0) as [b' [Ib' Xb']].
      assert (BND : forall k c x, class_of w k = Some c -> In x (k_mro c) -> x <= k).
      { clear - IV. intros k. induction k as [k IH] using (well_founded_induction lt_wf). intros c x C X.
        destruct (co_mro _ _ _ (IV _ _ C)) as [r [E [_ [M _]]]]. rewrite E in X. destruct X as [<-|X]; [lia|].
        destruct (M _ X) as [b [Ib Xb]]. destruct (co_bases _ _ _ (IV _ _ C) b Ib) as [L [cb [Cb _]]].
        unfold mro_of in Xb. rewrite Cb in Xb. pose proof (IH b L cb x Cb Xb). lia. }
      destruct (co_bases _ _ _ (IV _ _ Cb) b' Ib') as [L' [cb' [Cb' _]]]. unfold mro_of in Xb'. rewrite Cb' in Xb'.
      pose proof (BND _ _ _ Cb' Xb'). lia. }
    destruct (merge_spec _ _ _ M) as [N1 [N2 N3]].
    { intros l I. apply in_app_iff in I as [I|[<-|[]]]; [|assumption]. apply in_map_iff in I as [b [<- Ib]]. now apply SELF. }
    split; [assumption|]. split.
    - intros x Ix. destruct (N3 x Ix) as [l [Il Xl]]. apply in_app_iff in Il as [Il|[<-|[]]].
      + apply in_map_iff in Il as [b [<- Ib]]. eauto.
      + exists x. split; [assumption|]. now apply SELF.
    - intros b Ib. apply N2. apply in_app_iff. left. now apply in_map. }
  assert (BS : forall b, In b (st_bases s) -> b < List.length (w_classes w) /\
            exists cb, class_of w b = Some cb /\ meta_le (k_meta cb) (st_meta s)).
  { intros b Ib. destruct (B b Ib) as [cb [Cb M]]. split; [now apply class_of_lt in Cb|eauto]. }
  destruct (st_meta s) eqn:M.
  - right. eexists. split; [reflexivity|]. split; [reflexivity|]. split; [reflexivity|].
    split; cbn [k_stmt k_mro k_streams k_tasks k_main k_threads k_components k_settings k_state]; unfold registry;
      cbn [k_stmt k_mro k_streams k_tasks k_main k_threads k_components k_settings k_state]; rewrite ?M; cbn [is_component is_unit is_collection];
      try reflexivity; try assumption.
  - destruct (name_all pick_stream no_type (with_annotations s) (w_streams w)) as [sn ok]. destruct ok; cbn [negb]; [|now left].
    right. eexists. split; [reflexivity|]. split; [reflexivity|]. split; [reflexivity|].
    split; cbn [k_stmt k_mro k_streams k_tasks k_main k_threads k_components k_settings k_state]; unfold registry;
      cbn [k_stmt k_mro k_streams k_tasks k_main k_threads k_components k_settings k_state]; rewrite ?M; cbn [is_component is_unit is_collection];
      try reflexivity; try assumption.
  - destruct (name_all pick_stream no_type (with_annotations s) (w_streams w)) as [sn ok]. destruct ok; cbn [negb]; [|now left].
    destruct (base_main w (st_bases s) None) as [bm|] eqn:BM; [|now left].
    destruct (has_topic (with_annotations s)); [now left|].
    right. eexists. split; [reflexivity|]. split; [reflexivity|]. split; [reflexivity|].
    split; cbn [k_stmt k_mro k_streams k_tasks k_main k_threads k_components k_settings k_state]; unfold registry;
      cbn [k_stmt k_mro k_streams k_tasks k_main k_threads k_components k_settings k_state]; rewrite ?M; cbn [is_component is_unit is_collection];
      try reflexivity; try assumption.
    exists bm. split; [assumption|reflexivity].
  - destruct (name_all pick_stream no_type (with_annotations s) (w_streams w)) as [sn ok]. destruct ok; cbn [negb]; [|now left].
    destruct (name_all pick_component (fun _ _ => false) (with_annotations s) (w_components w)) as [cn okc]. destruct okc; cbn [negb]; [|now left].
    right. eexists. split; [reflexivity|]. split; [reflexivity|]. split; [reflexivity|].
    split; cbn [k_stmt k_mro k_streams k_tasks k_main k_threads k_components k_settings k_state]; unfold registry;
      cbn [k_stmt k_mro k_streams k_tasks k_main k_threads k_components k_settings k_state]; rewrite ?M; cbn [is_component is_unit is_collection];
      try reflexivity; try assumption.
Qed.

(* The same without the particular start. *)
Inductive steps : world -> Prop :=
| steps_start : steps empty_world
| steps_define w s : steps w -> accepted w s -> steps (fst (define w s)).

Lemma reachable_steps w : reachable w -> steps w.
Proof.
  induction 1 as [|w s R IH [P _]]; [|now constructor].
  apply steps_define; [constructor|]. split; [constructor|]. split; [constructor|]. intros b [].
Qed.

Lemma inv_steps w : steps w -> inv w.
Proof.
  induction 1 as [|w s R IV P].
  - intros k c C. unfold class_of in C. cbn in C. now destruct k.
  - destruct (define_cases w s IV P) as [[E _]|[c [E [_ [_ O]]]]].
    + intros k c C. assert (C' : class_of w k = Some c) by (unfold class_of in *; congruence).
      apply (class_ok_extends w); auto. intros k' c' C2. unfold class_of in *. congruence.
    + assert (X : extends w (fst (define w s))).
      { intros k c' C. unfold class_of in *. rewrite E. rewrite nth_error_app1; [assumption|]. apply nth_error_Some. congruence. }
      intros k c' C. pose proof C as C0. unfold class_of in C0. rewrite E in C0. apply lookup_nth in C0 as [C0|[-> ->]].
      * apply (class_ok_extends w); auto.
      * (* the new class: what it says of its bases, all of them earlier *)
        destruct O as [O1 O2 O3 O4 O5 O6 O7 O8 O9 O10].
        assert (B : forall b, In b (k_bases c) -> exists cb, class_of w b = Some cb).
        { intros b Ib. destruct (O2 b Ib) as [_ [cb [Cb _]]]. eauto. }
        assert (T : forall b, In b (tl (k_mro c)) -> exists cb, class_of w b = Some cb).
        { destruct O3 as [r [E3 [_ [M _]]]]. rewrite E3. cbn. intros x Ix. destruct (M x Ix) as [b [Ib Xb]].
          destruct (B b Ib) as [cb Cb]. unfold mro_of in Xb. rewrite Cb in Xb. exact (mro_classes w IV b cb Cb x Xb). }
        split.
        -- assumption.
        -- intros b Ib. destruct (O2 b Ib) as [L [cb [Cb M]]]. split; [assumption|]. exists cb. split; [now apply X|assumption].
        -- destruct O3 as [r [E3 [N [M S]]]]. exists r. split; [assumption|]. split; [assumption|]. split.
           ++ intros x Ix. destruct (M x Ix) as [b [Ib Xb]]. exists b. split; [assumption|]. rewrite (mro_of_extends w (fst (define w s))); auto.
           ++ intros b Ib. rewrite (mro_of_extends w (fst (define w s))); auto.
        -- unfold registry. rewrite (inherit_from_extends w (fst (define w s))); auto.
        -- unfold registry. rewrite (inherit_from_extends w (fst (define w s))); auto.
        -- unfold registry. rewrite (inherit_from_extends w (fst (define w s))); auto.
        -- unfold registry. rewrite (inherit_from_extends w (fst (define w s))); auto.
        -- rewrite (base_main_extends w (fst (define w s))); auto.
        -- rewrite O9. unfold final_type. now rewrite (lookup_type_extends k_settings w (fst (define w s))).
        -- rewrite O10. unfold final_type. now rewrite (lookup_type_extends k_state w (fst (define w s))).
Qed.

Lemma inv_reachable w : reachable w -> inv w.
Proof. intros R. apply inv_steps. now apply reachable_steps. Qed.

(* ---- looking up ---- *)

Fixpoint first (w : world) (l : list nat) (n : string) : option nat :=
  match l with
  | [] => None
  | k :: r => match class_of w k with
              | Some c => match get n (k_fields c) with Some _ => Some k | None => first w r n end
              | None => first w r n
              end
  end.

Definition own (w : world) (k : nat) (n : string) : option value :=
  match class_of w k with Some c => get n (k_fields c) | None => None end.

Lemma first_cons w k r n : first w (k :: r) n = match own w k n with Some _ => Some k | None => first w r n end.
Proof. cbn. unfold own. destruct (class_of w k); reflexivity. Qed.

Lemma lookup_cons w k r n : lookup w (k :: r) n = match own w k n with Some v => Some v | None => lookup w r n end.
Proof. cbn. unfold own. destruct (class_of w k); reflexivity. Qed.

Lemma lookup_first w l n : lookup w l n = match first w l n with Some e => own w e n | None => None end.
Proof.
  induction l as [|k r IH]; [reflexivity|]. rewrite lookup_cons, first_cons.
  destruct (own w k n) eqn:E; [now rewrite E|assumption].
Qed.

Lemma first_In w l n e : first w l n = Some e -> In e l /\ own w e n <> None.
Proof.
  induction l as [|k r IH]; [discriminate|]. rewrite first_cons. destruct (own w k n) eqn:E.
  - intros [= <-]. split; [now left|congruence].
  - intros H. destruct (IH H). split; [now right|assumption].
Qed.

Lemma first_None w l n : first w l n = None -> forall e, In e l -> own w e n = None.
Proof.
  induction l as [|k r IH]; [intros _ e []|]. rewrite first_cons. destruct (own w k n) eqn:E; [discriminate|].
  intros H e [<-|I]; auto.
Qed.

Lemma first_subseq w n l r e : subseq l r -> NoDup r -> first w r n = Some e -> In e l -> first w l n = Some e.
Proof.
  induction 1 as [r|x l r S IH|x l r S IH]; intros D F I; [destruct I| |]; inversion D as [|? ? N D']; subst.
  - rewrite first_cons in *. destruct (own w x n) eqn:E; [assumption|]. destruct I as [<-|I]; [|now apply IH].
    apply first_In in F as [_ F]. congruence.
  - rewrite first_cons in F. destruct (own w x n) eqn:E; [|now apply IH]. injection F as <-.
    exfalso. apply N. exact (subseq_In _ _ _ S I).
Qed.

Lemma binds_own w a n v : binds w a n v <-> own w a n = Some v.
Proof.
  unfold binds, own. split.
  - intros [c [C G]]. now rewrite C.
  - destruct (class_of w a) as [c|]; [|discriminate]. eauto.
Qed.

Lemma mro_self w k c : inv w -> class_of w k = Some c ->
  exists r, mro_of w k = k :: r /\ NoDup r /\
    (forall x, In x r -> exists b, In b (k_bases c) /\ In x (mro_of w b)) /\
    (forall b, In b (k_bases c) -> subseq (mro_of w b) r).
Proof. intros IV C. unfold mro_of at 1. rewrite C. exact (co_mro _ _ _ (IV _ _ C)). Qed.

Lemma mro_base w k c b : inv w -> class_of w k = Some c -> In b (k_bases c) -> forall x, In x (mro_of w b) -> In x (mro_of w k).
Proof.
  intros IV C Ib x X. destruct (mro_self w k c IV C) as [r [E [_ [_ S]]]]. rewrite E. right. exact (subseq_In _ _ _ (S b Ib) X).
Qed.

Lemma meta_le_trans a b c : meta_le a b -> meta_le b c -> meta_le a c.
Proof. destruct a, b, c; cbn; tauto. Qed.
Lemma meta_le_refl a : meta_le a a.
Proof. destruct a; exact I. Qed.

Lemma mro_meta w : inv w -> forall k c, class_of w k = Some c -> forall x cx, In x (mro_of w k) -> class_of w x = Some cx ->
  meta_le (k_meta cx) (k_meta c).
Proof.
  intros IV k. induction k as [k IH] using (well_founded_induction lt_wf). intros c C x cx X CX.
  destruct (mro_self w k c IV C) as [r [E [_ [M _]]]]. rewrite E in X. destruct X as [<-|X].
  - assert (c = cx) as -> by congruence. apply meta_le_refl.
  - destruct (M x X) as [b [Ib Xb]]. destruct (co_bases _ _ _ (IV _ _ C) b Ib) as [L [cb [Cb LE]]].
    eapply meta_le_trans; [|exact LE]. exact (IH b L cb Cb x cx Xb CX).
Qed.

Lemma get_with_annotations s n : n <> "SETTINGS"%string -> n <> "STATE"%string -> get n (with_annotations s) = get n (st_fields s).
Proof.
  intros N1 N2. unfold with_annotations. destruct (st_ann_settings s), (st_ann_state s); rewrite ?get_put_neq by assumption; reflexivity.
Qed.

(* ---- what is registered is what Python finds ---- *)

Lemma registered_found w ok pick reg n : inv w ->
  (forall a b, meta_le a b -> ok a = true -> ok b = true) ->
  (forall k c, class_of w k = Some c -> registry w ok pick reg c) ->
  n <> "SETTINGS"%string -> n <> "STATE"%string ->
  forall k c, class_of w k = Some c -> used_one_way w k n ok pick -> get n (reg c) = found w k n pick.
Proof.
  intros IV UP RG N1 N2 k. induction k as [k IH] using (well_founded_induction lt_wf). intros c C U.
  assert (ND : forall b cb, class_of w b = Some cb -> NoDup (keys (reg cb))).
  { intros b cb Cb. eapply registry_NoDup. apply (RG _ _ Cb). }
  destruct (mro_self w k c IV C) as [r [E [D [M S]]]].
  unfold found, attribute. rewrite E, lookup_cons.
  rewrite (RG _ _ C). destruct (own w k n) as [v|] eqn:O.
  - destruct (proj1 (U k ltac:(unfold ancestor; rewrite E; now left)) v (proj2 (binds_own _ _ _ _) O)) as [[c' [C' K]] P].
    assert (c = c') as <- by congruence. rewrite K. rewrite get_declare by (apply NoDup_with_annotations; apply (co_fields _ _ _ (IV _ _ C))).
    rewrite get_with_annotations by assumption. unfold own in O. rewrite C in O. rewrite O. destruct (pick v); congruence.
  - assert (A : bases_agree w k n).
    { apply (U k); [unfold ancestor; rewrite E; now left|]. intros v Bv. apply binds_own in Bv. congruence. }
    assert (IHb : forall b, In b (k_bases c) -> exists cb, class_of w b = Some cb /\ get n (reg cb) = found w b n pick).
    { intros b Ib. destruct (co_bases _ _ _ (IV _ _ C) b Ib) as [L [cb [Cb _]]]. exists cb. split; [assumption|].
      apply IH; try assumption. intros a Aa. apply U. exact (mro_base w k c b IV C Ib a Aa). }
    assert (PK : forall b v, In b (k_bases c) -> attribute w b n = Some v -> pick v <> None).
    { intros b v Ib Av. unfold attribute in Av. rewrite lookup_first in Av. destruct (first w (mro_of w b) n) as [e|] eqn:F; [|discriminate].
      apply first_In in F as [F _]. apply (U e); [exact (mro_base w k c b IV C Ib e F)|]. now apply binds_own. }
    destruct (lookup w r n) as [v|] eqn:LK.
    + (* some base has it, and Python finds it there *)
      rewrite lookup_first in LK. destruct (first w r n) as [e|] eqn:F; [|discriminate].
      destruct (first_In _ _ _ _ F) as [Ie _]. destruct (M e Ie) as [b [Ib Xe]].
      assert (AB : attribute w b n = Some v).
      { unfold attribute. rewrite lookup_first, (first_subseq w n _ r e (S b Ib) D F Xe). exact LK. }
      assert (OKc : ok (k_meta c) = true).
      { destruct (proj1 (U e (mro_base w k c b IV C Ib e Xe)) v (proj2 (binds_own _ _ _ _) LK)) as [[ce [Ce K]] _].
        eapply UP; [|exact K]. refine (mro_meta w IV k c C e ce _ Ce). rewrite E. now right. }
      rewrite OKc. rewrite get_declare by (apply NoDup_with_annotations; apply (co_fields _ _ _ (IV _ _ C))).
      rewrite get_with_annotations by assumption. unfold own in O. rewrite C in O. rewrite O.
      destruct (pick v) as [x|] eqn:PV; [|exfalso; exact (PK b v Ib AB PV)].
      apply inherit_agree; [assumption| |].
      * intros b' y Ib' Eb'. unfold base_entry in Eb'. destruct (IHb b' Ib') as [cb' [Cb' G]]. rewrite Cb', G in Eb'.
        unfold found in Eb'. destruct (attribute w b' n) as [v'|] eqn:Av'; [|discriminate].
        assert (v' = v) by (eapply (A c b' b); eauto). subst. congruence.
      * right. exists b. split; [assumption|]. unfold base_entry. destruct (IHb b Ib) as [cb [Cb G]]. rewrite Cb, G.
        unfold found. now rewrite AB.
    + (* no ancestor has it *)
      destruct (ok (k_meta c)); [|reflexivity].
      rewrite get_declare by (apply NoDup_with_annotations; apply (co_fields _ _ _ (IV _ _ C))).
      rewrite get_with_annotations by assumption. unfold own in O. rewrite C in O. rewrite O.
      destruct (get n (inherit_from w reg (k_bases c) [])) as [x|] eqn:G; [|reflexivity]. exfalso.
      apply inherit_source in G as [G|[b [Ib Eb]]]; [discriminate| |assumption].
      unfold base_entry in Eb. destruct (IHb b Ib) as [cb [Cb Gb]]. rewrite Cb, Gb in Eb. unfold found in Eb.
      destruct (attribute w b n) as [v|] eqn:Av; [|discriminate]. unfold attribute in Av. rewrite lookup_first in Av.
      destruct (first w (mro_of w b) n) as [e|] eqn:F; [|discriminate]. apply first_In in F as [Fi Fo].
      rewrite lookup_first in LK. destruct (first w r n) as [e'|] eqn:F'.
      * apply first_In in F' as [_ F']. rewrite LK in F'. now apply F'.
      * apply Fo. apply (first_None _ _ _ F'). exact (subseq_In _ _ _ (S b Ib) Fi).
Qed.

Lemma registered_source w ok pick reg n : inv w ->
  (forall k c, class_of w k = Some c -> registry w ok pick reg c) ->
  forall k c x, class_of w k = Some c -> get n (reg c) = Some x ->
  exists a ca v, ancestor w a k /\ class_of w a = Some ca /\ ok (k_meta ca) = true /\
     get n (with_annotations (k_stmt ca)) = Some v /\ pick v = Some x.
Proof.
  intros IV RG k. induction k as [k IH] using (well_founded_induction lt_wf). intros c x C G.
  assert (ND : forall b cb, class_of w b = Some cb -> NoDup (keys (reg cb))).
  { intros b cb Cb. eapply registry_NoDup. apply (RG _ _ Cb). }
  destruct (mro_self w k c IV C) as [r [E _]]. rewrite (RG _ _ C) in G. destruct (ok (k_meta c)) eqn:K; [|discriminate].
  rewrite get_declare in G by (apply NoDup_with_annotations; apply (co_fields _ _ _ (IV _ _ C))).
  assert (INH : get n (inherit_from w reg (k_bases c) []) = Some x ->
    exists a ca v, ancestor w a k /\ class_of w a = Some ca /\ ok (k_meta ca) = true /\
     get n (with_annotations (k_stmt ca)) = Some v /\ pick v = Some x).
  { intros H. apply inherit_source in H as [H|[b [Ib Eb]]]; [discriminate| |assumption].
    unfold base_entry in Eb. destruct (co_bases _ _ _ (IV _ _ C) b Ib) as [L [cb [Cb _]]]. rewrite Cb in Eb.
    destruct (IH b L cb x Cb Eb) as [a [ca [v [A H]]]]. exists a, ca, v. split; [|assumption].
    exact (mro_base w k c b IV C Ib a A). }
  destruct (get n (with_annotations (k_stmt c))) as [v|] eqn:O; [|auto].
  destruct (pick v) as [y|] eqn:P; [|auto]. injection G as ->.
  exists k, c, v. split; [unfold ancestor; rewrite E; now left|auto].
Qed.

Lemma registered_own w ok pick reg n k c v x : inv w ->
  (forall k c, class_of w k = Some c -> registry w ok pick reg c) ->
  n <> "SETTINGS"%string -> n <> "STATE"%string ->
  class_of w k = Some c -> ok (k_meta c) = true -> get n (k_fields c) = Some v -> pick v = Some x -> get n (reg c) = Some x.
Proof.
  intros IV RG N1 N2 C K G P. rewrite (RG _ _ C), K.
  rewrite get_declare by (apply NoDup_with_annotations; apply (co_fields _ _ _ (IV _ _ C))).
  now rewrite get_with_annotations, G, P by assumption.
Qed.

Lemma single_agree w k n : single_inheritance w k -> forall a, ancestor w a k -> bases_agree w a n.
Proof.
  intros SI a A c b1 b2 v1 v2 C I1 I2 A1 A2. specialize (SI a c A C).
  destruct (k_bases c) as [|b [|b' l]]; [destruct I1| |cbn in SI; lia].
  destruct I1 as [<-|[]], I2 as [<-|[]]. congruence.
Qed.

(* ---- the main function ---- *)

Lemma last_app_some {A} (l : list A) x d : last (l ++ [x]) d = x.
Proof. induction l as [|a [|b l] IH]; [reflexivity|reflexivity|exact IH]. Qed.

Lemma last_map_Some (l : list nat) m :
  match last (map Some l) None with Some x => Some x | None => m end = fold_left (fun _ x => Some x) l m.
Proof.
  revert m. induction l as [|x l IH] using rev_ind; intros m; [reflexivity|].
  rewrite map_app, fold_left_app. cbn [map fold_left]. now rewrite last_app_some.
Qed.

Lemma own_main_declared s m :
  own_main (with_annotations s) m = match last (map Some (main_functions s)) None with Some x => Some x | None => m end.
Proof.
  rewrite last_map_Some. unfold own_main, main_functions. generalize (with_annotations s) as l. intros l. revert m.
  induction l as [|[n v] l IH]; intros m; [reflexivity|]. cbn [fold_left flat_map snd]. rewrite fold_left_app, IH. f_equal.
  destruct v as [| | |f [t mn th]| |]; cbn; try reflexivity. destruct t, mn; reflexivity.
Qed.

Lemma subseq_all l r : subseq l r -> NoDup r -> (forall x, In x r -> In x l) -> l = r.
Proof.
  induction 1 as [r|x l r S IH|x l r S IH]; intros D H.
  - destruct r as [|y r]; [reflexivity|]. destruct (H y (or_introl eq_refl)).
  - inversion D as [|? ? N D']; subst. f_equal. apply IH; [assumption|]. intros y Iy.
    destruct (H y (or_intror Iy)) as [->|]; [contradiction|assumption].
  - inversion D as [|? ? N D']; subst. exfalso. apply N. exact (subseq_In _ _ _ S (H x (or_introl eq_refl))).
Qed.

Lemma nearest_none f w l : (forall a c, In a l -> class_of w a = Some c -> f c = None) -> nearest f w l = None.
Proof.
  induction l as [|a l IH]; intros H; [reflexivity|]. cbn. destruct (class_of w a) as [c|] eqn:C.
  - rewrite (H a c (or_introl eq_refl) C). apply IH. intros; eapply H; [right|]; eassumption.
  - apply IH. intros; eapply H; [right|]; eassumption.
Qed.

Lemma main_single w : inv w -> forall k c, class_of w k = Some c -> single_inheritance w k ->
  k_main c = nearest declared_main w (mro_of w k).
Proof.
  intros IV k. induction k as [k IH] using (well_founded_induction lt_wf). intros c C SI.
  destruct (mro_self w k c IV C) as [r [E [D [M S]]]]. rewrite E. cbn [nearest]. rewrite C.
  pose proof (co_main _ _ _ (IV _ _ C)) as CM.
  assert (L1 : List.length (k_bases c) <= 1) by (apply (SI k c); [unfold ancestor; rewrite E; now left|assumption]).
  assert (U : is_unit (k_meta c) = false -> nearest declared_main w r = None).
  { intros U. apply nearest_none. intros a ca Ia Ca. unfold declared_main.
    assert (LE : meta_le (k_meta ca) (k_meta c)) by (refine (mro_meta w IV k c C a ca _ Ca); rewrite E; now right).
    destruct (k_meta ca); cbn; try reflexivity. destruct (k_meta c); cbn in *; try contradiction; discriminate. }
  unfold declared_main at 1. destruct (is_unit (k_meta c)) eqn:UN; [|rewrite CM, U; reflexivity].
  destruct CM as [bm [BM ->]]. rewrite own_main_declared. destruct (last _ None); [reflexivity|].
  destruct (k_bases c) as [|b [|b' l]] eqn:KB; [| |cbn in L1; lia].
  - destruct r as [|x r]; [|destruct (M x (or_introl eq_refl)) as [b [[] _]]]. cbn in *. congruence.
  - assert (R : r = mro_of w b).
    { symmetry. apply subseq_all; [apply S; now left|assumption|]. intros x Ix. destruct (M x Ix) as [b' [[<-|[]] Xb]]. assumption. }
    destruct (co_bases _ _ _ (IV _ _ C) b) as [L [cb [Cb LE]]]; [rewrite KB; now left|].
    assert (SB : single_inheritance w b).
    { intros a ca Aa Ca. apply (SI a ca); [|assumption]. apply (mro_base w k c b IV C); [rewrite KB; now left|assumption]. }
    rewrite R, <- (IH b L cb Cb SB). cbn in BM. rewrite Cb in BM. destruct (k_meta cb) eqn:KM; try congruence.
    + pose proof (co_main _ _ _ (IV _ _ Cb)) as CB. rewrite KM in CB. cbn in CB. congruence.
    + pose proof (co_main _ _ _ (IV _ _ Cb)) as CB. rewrite KM in CB. cbn in CB. congruence.
    + pose proof (co_main _ _ _ (IV _ _ Cb)) as CB. rewrite KM in CB. cbn in CB. congruence.
Qed.

Lemma base_main_source w bases : forall m x, base_main w bases m = Some (Some x) ->
  m = Some x \/ exists b cb, In b bases /\ class_of w b = Some cb /\ k_main cb = Some x.
Proof.
  induction bases as [|b l IH]; cbn; intros m x E; [left; congruence|].
  assert (H : forall m', base_main w l m' = Some (Some x) -> m' = m \/ (exists cb, class_of w b = Some cb /\ k_main cb = m') ->
     m = Some x \/ exists b0 cb, (b = b0 \/ In b0 l) /\ class_of w b0 = Some cb /\ k_main cb = Some x).
  { intros m' E' H. apply IH in E' as [->|[b' [cb' [I' H']]]].
    - destruct H as [<-|[cb [Cb Mb]]]; [now left|]. right. exists b, cb. auto.
    - right. exists b', cb'. destruct H'. auto. }
  destruct (class_of w b) as [c|] eqn:C; [|apply (H m E); now left].
  destruct (k_meta c); try (apply (H m E); now left).
  destruct m; destruct (k_main c) eqn:K; try discriminate; apply (H _ E); right; exists c; auto.
Qed.

Lemma last_In (l : list nat) x : last (map Some l) None = Some x -> In x l.
Proof.
  induction l as [|y l IH] using rev_ind; [discriminate|]. rewrite map_app. cbn [map]. rewrite last_app_some.
  intros [= ->]. apply in_app_iff. right. now left.
Qed.

Lemma main_source w : inv w -> forall k c f, class_of w k = Some c -> k_main c = Some f ->
  exists a ca, ancestor w a k /\ class_of w a = Some ca /\ declared_main ca = Some f.
Proof.
  intros IV k. induction k as [k IH] using (well_founded_induction lt_wf). intros c f C KM.
  destruct (mro_self w k c IV C) as [r [E _]]. pose proof (co_main _ _ _ (IV _ _ C)) as CM.
  destruct (is_unit (k_meta c)) eqn:UN; [|congruence]. destruct CM as [bm [BM CM]].
  rewrite CM, own_main_declared in KM. destruct (last (map Some (main_functions (k_stmt c))) None) as [x|] eqn:L.
  - exists k, c. split; [unfold ancestor; rewrite E; now left|]. split; [assumption|]. unfold declared_main. rewrite UN. congruence.
  - subst bm. apply base_main_source in BM as [BM|[b [cb [Ib [Cb Mb]]]]]; [discriminate|].
    destruct (co_bases _ _ _ (IV _ _ C) b Ib) as [Lt _]. destruct (IH b Lt cb f Cb Mb) as [a [ca [A H]]].
    exists a, ca. split; [exact (mro_base w k c b IV C Ib a A)|assumption].
Qed.

(* ---- names ---- *)

Lemma name_all_keeps pick bad fields : forall names s n, get s names = Some n -> get s (fst (name_all pick bad fields names)) = Some n.
Proof.
  induction fields as [|[m v] l IH]; cbn; intros names s n G; [assumption|].
  destruct (pick v) as [x|].
  - destruct (get x names) eqn:X; [assumption|]. apply IH. rewrite get_put_neq; [assumption|congruence].
  - destruct (bad m v); [assumption|now apply IH].
Qed.

Lemma name_all_names pick bad fields : forall names, snd (name_all pick bad fields names) = true ->
  forall n v s, In (n, v) fields -> pick v = Some s -> get s (fst (name_all pick bad fields names)) = Some n.
Proof.
  induction fields as [|[m v0] l IH]; cbn; intros names OK n v s I P; [destruct I|].
  destruct I as [I|I].
  - injection I as -> ->. rewrite P in *. destruct (get s names); [discriminate|]. apply name_all_keeps. apply get_put_eq.
  - destruct (pick v0).
    + destruct (get n0 names); [discriminate|]. eapply IH; eassumption.
    + destruct (bad m v0); [discriminate|]. eapply IH; eassumption.
Qed.

Lemma In_declare pick fields : forall d n s, In (n, s) (declare pick fields d) ->
  In (n, s) d \/ exists v, In (n, v) fields /\ pick v = Some s.
Proof.
  unfold declare. induction fields as [|[m v] l IH]; cbn; intros d n s I; [now left|].
  apply IH in I as [I|[v' [I P]]]; [|right; eauto].
  destruct (pick v) as [x|] eqn:P; [|now left].
  assert (H : forall d, In (n, s) (put m x d) -> In (n, s) d \/ (n = m /\ s = x)).
  { clear. induction d as [|[k y] d IH]; cbn; [intros [[= <- <-]|[]]; now right|].
    destruct (dec m k); cbn; [intros [[= <- <-]|I]; [now right|left; now right]|].
    intros [I|I]; [left; now left|]. destruct (IH I); [left; now right|now right]. }
  apply H in I as [I|[-> ->]]; [now left|]. right. exists v. auto.
Qed.

Lemma In_inherit_from w reg bases : forall d n s, In (n, s) (inherit_from w reg bases d) ->
  In (n, s) d \/ exists b cb, In b bases /\ class_of w b = Some cb /\ In (n, s) (reg cb).
Proof.
  unfold inherit_from. induction bases as [|b l IH]; cbn; intros d n s I; [now left|].
  apply IH in I as [I|[b' [cb [I1 I2]]]]; [|right; exists b', cb; destruct I2; auto].
  destruct (class_of w b) as [c|] eqn:C; [|now left].
  assert (H : forall (l d : list (string * nat)), In (n, s) (fold_left (fun d e => put (fst e) (snd e) d) l d) -> In (n, s) d \/ In (n, s) l).
  { clear. induction l as [|[m x] l IH]; cbn; intros d I; [now left|]. apply IH in I as [I|I]; [|right; now right].
    assert (H : forall d, In (n, s) (put m x d) -> In (n, s) d \/ (m, x) = (n, s)).
    { clear. induction d as [|[k y] d IH]; cbn; [intros [I|[]]; now right|].
      destruct (dec m k); cbn; [intros [I|I]; [now right|left; now right]|].
      intros [I|I]; [left; now left|]. destruct (IH I); [left; now right|now right]. }
    apply H in I as [I|I]; auto. }
  apply H in I as [I|I]; [now left|]. right. exists b, c. auto.
Qed.

Definition named (w : world) : Prop :=
  (forall k c n s, class_of w k = Some c -> In (n, s) (k_streams c) -> get s (w_streams w) = Some n) /\
  (forall k c n s, class_of w k = Some c -> In (n, s) (k_components c) -> get s (w_components w) = Some n).

Lemma define_names w s :
  (forall x n, get x (w_streams w) = Some n -> get x (w_streams (fst (define w s))) = Some n) /\
  (forall x n, get x (w_components w) = Some n -> get x (w_components (fst (define w s))) = Some n).
Proof.
  unfold define. destruct (linearize _ _ _); [|split; auto].
  pose proof (fun x n => name_all_keeps pick_stream no_type (with_annotations s) (w_streams w) x n) as KS.
  pose proof (fun x n => name_all_keeps pick_component (fun _ _ => false) (with_annotations s) (w_components w) x n) as KC.
  destruct (st_meta s); [split; auto| | |];
    destruct (name_all pick_stream no_type (with_annotations s) (w_streams w)) as [sn [|]]; cbn [negb fst w_streams w_components] in *; try (split; auto; fail).
  - destruct (base_main _ _ _); [|split; auto]. destruct (has_topic _); split; auto.
  - destruct (name_all pick_component _ _ _) as [cn [|]]; cbn [negb fst w_streams w_components] in *; split; auto.
Qed.

Lemma define_new_names w s c : w_classes (fst (define w s)) = w_classes w ++ [c] -> is_component (st_meta s) = true ->
  (forall n v x, In (n, v) (with_annotations s) -> pick_stream v = Some x -> get x (w_streams (fst (define w s))) = Some n) /\
  (is_collection (st_meta s) = true ->
   forall n v x, In (n, v) (with_annotations s) -> pick_component v = Some x -> get x (w_components (fst (define w s))) = Some n).
Proof.
  assert (NE : forall (l : list class) x, l <> l ++ [x]) by (intros l x H; apply (f_equal (@List.length class)) in H; rewrite app_length in H; cbn in H; lia).
  unfold define. destruct (linearize _ _ _); [|cbn; intros H; now apply NE in H].
  pose proof (fun E n v x => name_all_names pick_stream no_type (with_annotations s) (w_streams w) E n v x) as KS.
  pose proof (fun E n v x => name_all_names pick_component (fun _ _ => false) (with_annotations s) (w_components w) E n v x) as KC.
  destruct (st_meta s); cbn [is_component is_collection]; [discriminate| | |];
    destruct (name_all pick_stream no_type (with_annotations s) (w_streams w)) as [sn [|]]; cbn [negb fst snd] in *;
    try (intros H; now apply NE in H).
  - intros _ _. split; [now apply KS|discriminate].
  - destruct (base_main _ _ _); [|intros H; now apply NE in H]. destruct (has_topic _); [intros H; now apply NE in H|].
    intros _ _. split; [now apply KS|discriminate].
  - destruct (name_all pick_component _ _ _) as [cn [|]]; cbn [negb fst snd w_streams w_components w_classes] in *;
      [|intros H; now apply NE in H]. intros _ _. split; [now apply KS|]. intros _. now apply KC.
Qed.

Lemma named_steps w : steps w -> named w.
Proof.
  induction 1 as [|w s R [N1 N2] P].
  - split; intros k c; unfold class_of; cbn; destruct k; discriminate.
  - pose proof (inv_steps _ R) as IV. destruct (define_names w s) as [K1 K2].
    destruct (define_cases w s IV P) as [[E _]|[c [E [_ [ST O]]]]].
    + split; intros k c n x C I; assert (C' : class_of w k = Some c) by (unfold class_of in *; congruence); eauto.
    + split; intros k c' n x C I; pose proof C as C0; unfold class_of in C0; rewrite E in C0; apply lookup_nth in C0 as [C0|[-> ->]]; eauto.
      * pose proof (co_streams _ _ _ O) as RG. unfold registry in RG. rewrite RG, ST in I. destruct (is_component (st_meta s)) eqn:K; [|destruct I].
        apply In_declare in I as [I|[v [I V]]].
        -- apply In_inherit_from in I as [[]|[b [cb [Ib [Cb Is]]]]]. eauto.
        -- exact (proj1 (define_new_names w s c E K) n v x I V).
      * pose proof (co_components _ _ _ O) as RG. unfold registry in RG. rewrite RG, ST in I. destruct (is_collection (st_meta s)) eqn:K; [|destruct I].
        apply In_declare in I as [I|[v [I V]]].
        -- apply In_inherit_from in I as [[]|[b [cb [Ib [Cb Is]]]]]. eauto.
        -- refine (proj2 (define_new_names w s c E _) K n v x I V). destruct (st_meta s); [discriminate|reflexivity..].
Qed.

(* ---- the types of settings and state ---- *)

Lemma subseq_trans a b c : subseq a b -> subseq b c -> subseq a c.
Proof.
  intros S1 S2. revert a S1. induction S2 as [r|x l r S IH|x l r S IH]; intros a S1.
  - inversion S1; subst. constructor.
  - inversion S1; subst; constructor; auto.
  - constructor. auto.
Qed.

Lemma subseq_pair_skip x y z l : subseq [x; y] (z :: l) -> x <> z -> subseq [x; y] l.
Proof. intros S N. inversion S; subst; [congruence|assumption]. Qed.

Lemma subseq_one x l : In x l -> subseq [x] l.
Proof.
  induction l as [|y l IH]; [intros []|]. intros [->|I]; [repeat constructor|constructor; auto].
Qed.

Definition rooted (w : world) : Prop :=
  (exists c0, class_of w 0 = Some c0 /\ mro_of w 0 = [0] /\ is_component (k_meta c0) = true /\
     k_settings c0 = Some ez_settings /\ k_state c0 = Some ez_state /\
     k_stmt c0 = Stmt MComponent [] [] None None) /\
  (forall k c, class_of w k = Some c -> k <> 0 -> is_component (k_meta c) = true ->
     exists b cb, In b (k_bases c) /\ class_of w b = Some cb /\ is_component (k_meta cb) = true).

Lemma rooted_reachable w : reachable w -> rooted w.
Proof.
  induction 1 as [|w s R [[c0 [C0 [M0 H0]]] RT] [P PC]].
  - split; [eexists; split; [reflexivity|]; repeat split; reflexivity|].
    intros [|k] c C NE; [congruence|]. unfold class_of in C. cbn in C. now destruct k.
  - pose proof (inv_reachable _ R) as IV.
    destruct (define_cases w s IV P) as [[E _]|[c [E [_ [ST O]]]]].
    + assert (CO : forall k, class_of (fst (define w s)) k = class_of w k) by (intros; unfold class_of; congruence).
      split; [exists c0; unfold mro_of; rewrite CO; auto|]. intros k c C NE K. rewrite CO in C.
      destruct (RT k c C NE K) as [b [cb H]]. exists b, cb. now rewrite CO.
    + assert (X : extends w (fst (define w s))).
      { intros k c' C. unfold class_of in *. rewrite E. rewrite nth_error_app1; [assumption|]. apply nth_error_Some. congruence. }
      split; [exists c0; split; [now apply X|]; split; [|assumption]; rewrite (mro_of_extends w) by eauto; assumption|].
      intros k c' C NE K. pose proof C as C'. unfold class_of in C'. rewrite E in C'. apply lookup_nth in C' as [C'|[-> ->]].
      * destruct (RT k c' C' NE K) as [b [cb [H1 [H2 H3]]]]. exists b, cb. auto.
      * rewrite ST in *. destruct (PC K) as [b [cb [H1 [H2 H3]]]]. exists b, cb. auto.
Qed.

Lemma root_last w : inv w -> rooted w -> forall k c, class_of w k = Some c -> is_component (k_meta c) = true ->
  In 0 (mro_of w k) /\
  forall x cx, In x (mro_of w k) -> class_of w x = Some cx -> is_component (k_meta cx) = true -> x <> 0 -> subseq [x; 0] (mro_of w k).
Proof.
  intros IV [[c0 [C0 [M0 _]]] RT] k. induction k as [k IH] using (well_founded_induction lt_wf). intros c C K.
  destruct (Nat.eq_dec k 0) as [->|NE].
  - rewrite M0. split; [now left|]. intros x cx [<-|[]] _ _ N. congruence.
  - destruct (mro_self w k c IV C) as [r [E [D [M S]]]]. rewrite E.
    assert (Z : In 0 r).
    { destruct (RT k c C NE K) as [b [cb [Ib [Cb Kb]]]]. destruct (co_bases _ _ _ (IV _ _ C) b Ib) as [L _].
      destruct (IH b L cb Cb Kb) as [Z _]. exact (subseq_In _ _ _ (S b Ib) Z). }
    split; [now right|]. intros x cx [<-|Ix] Cx Kx N0.
    + constructor. now apply subseq_one.
    + constructor. destruct (M x Ix) as [b [Ib Xb]]. destruct (co_bases _ _ _ (IV _ _ C) b Ib) as [L [cb [Cb _]]].
      assert (Kb : is_component (k_meta cb) = true).
      { pose proof (mro_meta w IV b cb Cb x cx Xb Cx) as LE. destruct (k_meta cx), (k_meta cb); cbn in *; try reflexivity; try contradiction; discriminate. }
      eapply subseq_trans; [|exact (S b Ib)]. exact (proj2 (IH b L cb Cb Kb) x cx Xb Cx Kx N0).
Qed.

Lemma lookup_type_finds own w l x cx t : In x l -> class_of w x = Some cx -> own cx = Some t -> exists t', lookup_type own w l = Some t'.
Proof.
  intros I C O. induction l as [|y l IH]; [destruct I|]. cbn. destruct (class_of w y) as [cy|] eqn:Cy.
  - destruct (own cy) eqn:Oy; [eauto|]. destruct I as [->|I]; [congruence|auto].
  - destruct I as [->|I]; [congruence|auto].
Qed.

Lemma type_found w (own decl : class -> option nat) dflt : inv w -> rooted w ->
  (forall c, is_component (k_meta c) = false -> decl c = None) ->
  (forall k c, class_of w k = Some c ->
     own c = if is_component (k_meta c) then final_type own w (tl (k_mro c)) dflt (decl c) else None) ->
  (forall c0, class_of w 0 = Some c0 -> own c0 = Some dflt /\ decl c0 = None) ->
  forall k c, class_of w k = Some c -> is_component (k_meta c) = true ->
  lookup_type own w (mro_of w k) = Some (match nearest decl w (mro_of w k) with Some t => t | None => dflt end).
Proof.
  intros IV RT DP OWN Z. 
  assert (OD : forall k c, class_of w k = Some c -> k <> 0 -> own c = decl c).
  { intros k c C NE. rewrite (OWN _ _ C). destruct (is_component (k_meta c)) eqn:K; [|now rewrite DP].
    destruct (root_last w IV RT k c C K) as [Z0 _]. destruct RT as [[c0 [C0 _]] _]. destruct (Z c0 C0) as [O0 _].
    destruct (mro_self w k c IV C) as [r [E _]]. rewrite E in Z0. destruct Z0 as [Z0|Z0]; [congruence|].
    destruct (lookup_type_finds own w r 0 c0 dflt Z0 C0 O0) as [t T].
    assert (KM : k_mro c = k :: r) by (unfold mro_of in E; now rewrite C in E).
    unfold final_type. rewrite KM. cbn [tl]. rewrite T. now destruct (decl c). }
  intros k c C K. destruct (root_last w IV RT k c C K) as [Z0 ORD].
  assert (D : NoDup (mro_of w k)).
  { destruct (mro_self w k c IV C) as [r [E [D [M _]]]]. rewrite E. constructor; [|assumption]. intros I.
    assert (BND : forall k c x, class_of w k = Some c -> In x (mro_of w k) -> x <= k).
    { clear - IV. intros k. induction k as [k IH] using (well_founded_induction lt_wf). intros c x C X.
      destruct (mro_self w k c IV C) as [r [E [_ [M _]]]]. rewrite E in X. destruct X as [<-|X]; [lia|].
      destruct (M _ X) as [b [Ib Xb]]. destruct (co_bases _ _ _ (IV _ _ C) b Ib) as [L [cb [Cb _]]].
      pose proof (IH b L cb x Cb Xb). lia. }
    destruct (M _ I) as [b [Ib Xb]]. destruct (co_bases _ _ _ (IV _ _ C) b Ib) as [L [cb [Cb _]]].
    pose proof (BND _ _ _ Cb Xb). lia. }
  assert (EX : forall x, In x (mro_of w k) -> exists cx, class_of w x = Some cx).
  { intros x X. unfold mro_of in X. rewrite C in X. exact (mro_classes w IV k c C x X). }
  revert Z0 ORD D EX. generalize (mro_of w k) as l. clear k c C K. induction l as [|y l IH]; intros Z0 ORD D EX; [destruct Z0|].
  inversion D as [|? ? N D']; subst. destruct (EX y (or_introl eq_refl)) as [cy Cy]. cbn. rewrite Cy.
  destruct (Nat.eq_dec y 0) as [->|NE].
  - destruct (Z cy Cy) as [-> ->]. rewrite (nearest_none decl w l); [reflexivity|].
    intros a ca Ia Ca. destruct (is_component (k_meta ca)) eqn:Ka; [|now apply DP]. exfalso. apply N.
    assert (a <> 0) by congruence.
    pose proof (subseq_pair_skip _ _ _ _ (ORD a ca (or_intror Ia) Ca Ka H) H) as S2. exact (subseq_In _ _ 0 S2 (or_intror (or_introl eq_refl))).
  - rewrite (OD y cy Cy NE). destruct (decl cy); [reflexivity|]. apply IH.
    + destruct Z0; [congruence|assumption].
    + intros x cx Ix Cx Kx N0. refine (subseq_pair_skip _ _ y _ (ORD x cx (or_intror Ix) Cx Kx N0) _). congruence.
    + assumption.
    + intros x Ix. apply EX. now right.
Qed.

(* ---- when a class statement succeeds ---- *)

Lemma get_stands_for s n : get n (with_annotations s) = stands_for s n.
Proof.
  unfold with_annotations, stands_for. destruct (string_dec n "SETTINGS") as [->|N1].
  - destruct (st_ann_settings s), (st_ann_state s); rewrite ?(get_put_neq "SETTINGS"%string "STATE"%string) by discriminate;
      rewrite ?get_put_eq; reflexivity.
  - destruct (string_dec n "STATE") as [->|N2].
    + destruct (st_ann_state s); [now rewrite get_put_eq|].
      destruct (st_ann_settings s); rewrite ?(get_put_neq "STATE"%string "SETTINGS"%string) by discriminate; reflexivity.
    + destruct (st_ann_settings s), (st_ann_state s); rewrite ?get_put_neq by congruence; reflexivity.
Qed.

Lemma name_all_ok pick bad fields : forall names, NoDup (keys fields) ->
  (snd (name_all pick bad fields names) = true <->
   (forall n v x, In (n, v) fields -> pick v = Some x -> get x names = None) /\
   (forall n1 v1 n2 v2 x, In (n1, v1) fields -> In (n2, v2) fields -> pick v1 = Some x -> pick v2 = Some x -> n1 = n2) /\
   (forall n v, In (n, v) fields -> pick v = None -> bad n v = false)).
Proof.
  induction fields as [|[m v0] l IH]; intros names ND; cbn [name_all].
  - split; [intros _|reflexivity]. repeat split; intros; contradiction.
  - inversion ND as [|? ? NI ND']. subst.
    assert (NK : forall v, ~ In (m, v) l).
    { intros v I. apply NI. change (In (fst (m, v)) (keys l)). unfold keys. now apply in_map. }
    destruct (pick v0) as [x0|] eqn:P0.
    + destruct (get x0 names) as [y|] eqn:G.
      * cbn [snd]. split; [discriminate|]. intros [X _]. specialize (X m v0 x0 (or_introl eq_refl) P0). congruence.
      * rewrite (IH _ ND'). split.
        -- intros [X1 [X2 X3]].
           assert (FR : forall n v, In (n, v) l -> pick v <> Some x0).
           { intros n v I P. specialize (X1 n v x0 I P). rewrite get_put_eq in X1. discriminate. }
           split; [|split].
           ++ intros n v x [I|I] P; [injection I as <- <-; congruence|]. pose proof (X1 n v x I P) as Y.
              rewrite get_put_neq in Y; [exact Y|]. intros ->. exact (FR n v I P).
           ++ intros n1 v1 n2 v2 x [I1|I1] [I2|I2] Q1 Q2.
              ** congruence.
              ** injection I1 as <- <-. exfalso. apply (FR n2 v2 I2). congruence.
              ** injection I2 as <- <-. exfalso. apply (FR n1 v1 I1). congruence.
              ** exact (X2 n1 v1 n2 v2 x I1 I2 Q1 Q2).
           ++ intros n v [I|I] Q; [injection I as <- <-; congruence|]. exact (X3 n v I Q).
        -- intros [X1 [X2 X3]]. split; [|split].
           ++ intros n v x I P. rewrite get_put_neq; [exact (X1 n v x (or_intror I) P)|]. intros ->.
              assert (n = m) as -> by (apply (X2 n v m v0 x0); auto; [now right|now left]). exact (NK v I).
           ++ intros n1 v1 n2 v2 x I1 I2. apply (X2 n1 v1 n2 v2 x); now right.
           ++ intros n v I. apply X3. now right.
    + destruct (bad m v0) eqn:BD.
      * cbn [snd]. split; [discriminate|]. intros [_ [_ X]]. specialize (X m v0 (or_introl eq_refl) P0). congruence.
      * rewrite (IH _ ND'). split.
        -- intros [X1 [X2 X3]]. split; [|split].
           ++ intros n v x [I|I] P; [injection I as <- <-; congruence|]. exact (X1 n v x I P).
           ++ intros n1 v1 n2 v2 x [I1|I1] [I2|I2] Q1 Q2; try congruence. exact (X2 n1 v1 n2 v2 x I1 I2 Q1 Q2).
           ++ intros n v [I|I] Q; [injection I as <- <-; exact BD|]. exact (X3 n v I Q).
        -- intros [X1 [X2 X3]]. split; [|split].
           ++ intros n v x I. apply (X1 n v x). now right.
           ++ intros n1 v1 n2 v2 x I1 I2. apply (X2 n1 v1 n2 v2 x); now right.
           ++ intros n v I. apply X3. now right.
Qed.

Lemma merge_line l : forall fuel, NoDup l -> List.length l <= fuel -> merge fuel [l; []] = Some l.
Proof.
  induction l as [|x l IH]; intros fuel ND LE; [destruct fuel; reflexivity|].
  destruct fuel as [|fuel]; [cbn in LE; lia|]. inversion ND as [|? ? NI ND']. subst.
  cbn [merge all_empty forallb andb good_head existsb tl].
  assert (M : mem x l = false) by (now apply mem_false). rewrite M. cbn [mem existsb orb].
  cbn [map drop_head]. destruct (dec x x); [|congruence]. rewrite IH; [reflexivity|exact ND'|cbn in LE; lia].
Qed.

Lemma linearize_one w b cb : inv w -> class_of w b = Some cb ->
  exists mro, linearize w (List.length (w_classes w)) [b] = Some mro.
Proof.
  intros I C. destruct (mro_self w b cb I C) as [r E]. unfold linearize. cbn [map app].
  destruct (co_mro _ _ _ (I b cb C)) as [r' [E' [ND _]]].
  assert (EM : mro_of w b = b :: r') by (unfold mro_of; now rewrite C).
  assert (NB : ~ In b r').
  { intros X. destruct (co_mro _ _ _ (I b cb C)) as [r'' [E'' [_ [S _]]]]. assert (r'' = r') as -> by congruence.
    destruct (S b X) as [d [D1 D2]]. destruct (co_bases _ _ _ (I b cb C) d D1) as [LT [cd [CD _]]].
    clear - I D2 LT CD. assert (Y : forall k c, class_of w k = Some c -> forall x, In x (k_mro c) -> x <= k).
    { induction k as [k IH] using lt_wf_ind. intros c Hc x Hx. destruct (co_mro _ _ _ (I k c Hc)) as [q [Q1 [_ [Q2 _]]]].
      rewrite Q1 in Hx. destruct Hx as [->|Hx]; [lia|]. destruct (Q2 x Hx) as [e [E1 E2]].
      destruct (co_bases _ _ _ (I k c Hc) e E1) as [LT' [ce [CE _]]]. unfold mro_of in E2. rewrite CE in E2.
      specialize (IH e LT' ce CE x E2). lia. }
    unfold mro_of in D2. rewrite CD in D2. specialize (Y d cd CD b D2). lia. }
  rewrite EM. cbn [concat app List.length]. cbn [merge all_empty forallb andb good_head existsb tl].
  assert (M : mem b r' = false) by (now apply mem_false). rewrite M. cbn [mem existsb orb].
  cbn [map drop_head]. destruct (dec b b); [|congruence].
  rewrite merge_line; [eexists; reflexivity|exact ND|rewrite app_length; cbn; lia].
Qed.
