(* Proofs for DrawProps: the text of a drawing, line by line; how both readers read it; which topics
   the tree of boxes keeps. *)

From Coq Require Import String Ascii List Arith Bool Lia Permutation.
From Verif Require Import Dict DrawModel DrawSpec.
Import ListNotations.
Open Scope bool_scope.

(** ** Characters *)

Ltac allchars c := destruct c as [[|] [|] [|] [|] [|] [|] [|] [|]]; vm_compute.

Definition dot_char (c : ascii) : bool := letter c || digit c || is "_" c.
Definition uuid_char (c : ascii) : bool := digit c || between 97 102 c || is "-" c.

Lemma name_char_plain c : name_char c = true -> line_break c = false /\ white c = false /\ is eol c = false /\ is "/" c = false.
Proof. allchars c; auto; discriminate. Qed.

Lemma uuid_char_name c : uuid_char c = true -> name_char c = true.
Proof. allchars c; auto. Qed.

Lemma dot_char_name c : dot_char c = true -> name_char c = true.
Proof. allchars c; auto. Qed.

Lemma name_lower c : name_char c = true -> name_char (lower_char c) = true.
Proof. allchars c; auto. Qed.

Lemma name_lower_small c : name_char c = true ->
  lower_char c = (if between 65 90 c then ascii_of_nat (nat_of_ascii c + 32) else c).
Proof. allchars c; auto; discriminate. Qed.

Lemma dot_lower c : dot_char c = true -> dot_char (lower_char c) = true.
Proof. allchars c; auto. Qed.

Lemma start_lower c : letter c || is "_" c = true -> letter (lower_char c) || is "_" (lower_char c) = true.
Proof. allchars c; auto. Qed.

Lemma start_dot c : letter c || is "_" c = true -> dot_char c = true.
Proof. allchars c; auto. Qed.

Lemma start_word c : letter c || is "_" c = true -> word_start c = true /\ space c = false /\ is """" c = false.
Proof. allchars c; auto; discriminate. Qed.

Lemma dot_word c : dot_char c = true -> word_char c = true.
Proof. allchars c; auto. Qed.

Lemma name_unquoted c : name_char c = true -> is """" c = false /\ is "\" c = false.
Proof. allchars c; auto; discriminate. Qed.

Lemma small_twice c :
  (fun c => if between 65 90 c then ascii_of_nat (nat_of_ascii c + 32) else c)
    ((fun c => if between 65 90 c then ascii_of_nat (nat_of_ascii c + 32) else c) c) =
  (fun c => if between 65 90 c then ascii_of_nat (nat_of_ascii c + 32) else c) c.
Proof. allchars c; auto. Qed.

Lemma small_small s : small (small s) = small s.
Proof. unfold small. rewrite map_map. apply map_ext. apply small_twice. Qed.

Lemma lower_is_small s : forallb name_char s = true -> lower s = small s.
Proof.
  unfold lower, small. intros F. rewrite forallb_forall in F. apply map_ext_in. intros c I.
  apply name_lower_small. auto.
Qed.

Lemma forallb_map_imp {A} (f g : A -> bool) (h : A -> A) (l : list A) :
  (forall x, f x = true -> g (h x) = true) -> forallb f l = true -> forallb g (map h l) = true.
Proof. intros H. induction l as [|x l IH]; cbn; auto. rewrite !andb_true_iff. intuition. Qed.

Lemma forallb_imp {A} (f g : A -> bool) (l : list A) :
  (forall x, f x = true -> g x = true) -> forallb f l = true -> forallb g l = true.
Proof. intros H. induction l as [|x l IH]; cbn; auto. rewrite !andb_true_iff. intuition. Qed.

Lemma same_refl s : same s s = true.
Proof. unfold same. destruct (list_eq_dec ascii_dec s s); congruence. Qed.

Lemma same_eq s t : same s t = true <-> s = t.
Proof. unfold same. destruct (list_eq_dec ascii_dec s t); split; congruence. Qed.

Lemma same_neq s t : s <> t -> same s t = false.
Proof. unfold same. destruct (list_eq_dec ascii_dec s t); congruence. Qed.

Lemma span_all f (s r : text) : forallb f s = true -> (match r with c :: _ => f c = false | [] => True end) ->
  span f (s ++ r) = (s, r).
Proof.
  intros F R. induction s as [|c s IH]; cbn.
  - destruct r as [|c r]; cbn; auto. rewrite R. reflexivity.
  - cbn in F. apply andb_true_iff in F. destruct F as [F1 F2]. rewrite F1. rewrite IH; auto.
Qed.

Lemma span_all_end f (s : text) : forallb f s = true -> span f s = (s, []).
Proof. intros F. rewrite <- (app_nil_r s) at 1. apply span_all; auto. Qed.

Lemma after_app (a s : text) : after a (a ++ s) = Some s.
Proof. induction a as [|c a IH]; cbn; auto. unfold is. rewrite Ascii.eqb_refl. exact IH. Qed.

(** ** Lines *)

Definition no_break (l : text) : Prop := forall c, In c l -> line_break c = false.
Definition good (l : text) : Prop := no_break l /\ forallb white l = false.
Definition unlines (ls : list text) : text := flat_map (fun l => l ++ [newline]) ls.

Lemma no_break_app a b : no_break (a ++ b) <-> no_break a /\ no_break b.
Proof.
  unfold no_break. split.
  - intros H. split; intros c I; apply H; apply in_app_iff; auto.
  - intros [A B] c I. apply in_app_iff in I. destruct I; auto.
Qed.

Lemma no_break_name s : forallb name_char s = true -> no_break s.
Proof. intros F c I. rewrite forallb_forall in F. apply name_char_plain. auto. Qed.

Lemma unlines_app a b : unlines (a ++ b) = unlines a ++ unlines b.
Proof. apply flat_map_app. Qed.

Lemma splitlines_line l : no_break l -> forall cur s,
  splitlines cur (l ++ newline :: s) = (rev cur ++ l ++ [newline]) :: splitlines [] s.
Proof.
  induction l as [|c l IH]; intros N cur s.
  - change (splitlines cur (newline :: s)) with
      (match s with
       | d :: _ => if (nat_of_ascii newline =? 13) && (nat_of_ascii d =? 10) then splitlines (newline :: cur) s
                   else rev (newline :: cur) :: splitlines [] s
       | [] => [rev (newline :: cur)]
       end).
    destruct s as [|d s]; reflexivity.
  - change ((c :: l) ++ newline :: s) with (c :: (l ++ newline :: s)).
    assert (E : line_break c = false) by (apply N; left; reflexivity).
    cbn [splitlines]. rewrite E. rewrite IH.
    + cbn [rev]. rewrite <- app_assoc. reflexivity.
    + intros d I. apply N. right. exact I.
Qed.

Lemma splitlines_unlines ls : Forall no_break ls -> splitlines [] (unlines ls) = map (fun l => l ++ [newline]) ls.
Proof.
  induction 1 as [|l ls N F IH]; [reflexivity|].
  unfold unlines. cbn [flat_map map]. rewrite <- app_assoc. cbn [app].
  rewrite splitlines_line by assumption. cbn [rev app]. f_equal. exact IH.
Qed.

Lemma indent_unlines ls : Forall good ls -> indent (unlines ls) = unlines (map (app IND) ls).
Proof.
  intros F. unfold indent. rewrite splitlines_unlines.
  - unfold unlines. rewrite !flat_map_concat_map, !map_map. f_equal. apply map_ext_in. intros l I.
    rewrite Forall_forall in F. destruct (F l I) as [_ W].
    rewrite forallb_app, W. cbn [andb]. now rewrite app_assoc.
  - eapply Forall_impl; [|exact F]. intros l [N _]. exact N.
Qed.

Lemma splitlines_last l : no_break l -> forall cur, rev cur ++ l <> [] -> splitlines cur l = [rev cur ++ l].
Proof.
  induction l as [|c l IH]; intros N cur NE.
  - cbn. rewrite app_nil_r in *. destruct cur; [now contradiction NE|]. reflexivity.
  - cbn [splitlines]. rewrite (N c (or_introl eq_refl)). rewrite IH.
    + cbn [rev]. rewrite <- app_assoc. reflexivity.
    + intros d I. apply N. right. exact I.
    + cbn [rev]. rewrite <- app_assoc. cbn. intros E. apply app_eq_nil in E. destruct E as [_ E]. discriminate.
Qed.

Lemma indent_line l : good l -> indent l = IND ++ l.
Proof.
  intros [N W]. unfold indent. rewrite splitlines_last; auto.
  - cbn [rev app flat_map]. rewrite W. now rewrite app_nil_r.
  - cbn. destruct l; [discriminate|]. discriminate.
Qed.

Lemma good_IND l : good l -> good (IND ++ l).
Proof.
  intros [N W]. split.
  - apply no_break_app. split; [|exact N]. intros c I. cbn in I. destruct I as [<-|[<-|[]]]; reflexivity.
  - rewrite forallb_app, W. reflexivity.
Qed.

Lemma good_with a b : no_break a -> no_break b -> forallb white a = false -> good (a ++ b).
Proof. intros A B W. split; [apply no_break_app; auto|]. rewrite forallb_app, W. reflexivity. Qed.

Lemma joinlines_cons l ls : ls <> [] -> joinlines (l :: ls) = l ++ newline :: joinlines ls.
Proof. destruct ls; [congruence|reflexivity]. Qed.

Lemma joinlines_unlines ls : ls <> [] -> joinlines (ls ++ [[]]) = unlines ls.
Proof.
  intros _. induction ls as [|l ls IH]; [reflexivity|].
  change ((l :: ls) ++ [[]]) with (l :: (ls ++ [[]])).
  rewrite joinlines_cons by (destruct ls; discriminate). rewrite IH.
  unfold unlines. cbn [flat_map]. rewrite <- app_assoc. reflexivity.
Qed.

Lemma removelast_unlines ls : ls <> [] -> removelast (unlines ls) = joinlines ls.
Proof.
  intros NE. induction ls as [|l ls IH]; [congruence|].
  destruct ls as [|l' ls].
  - unfold unlines. cbn [flat_map]. rewrite app_nil_r. rewrite removelast_app by discriminate.
    cbn [removelast]. rewrite app_nil_r. reflexivity.
  - rewrite joinlines_cons by discriminate. rewrite <- IH by discriminate.
    change (unlines (l :: l' :: ls)) with ((l ++ [newline]) ++ unlines (l' :: ls)).
    rewrite removelast_app.
    + rewrite <- app_assoc. reflexivity.
    + unfold unlines. cbn [flat_map]. destruct l'; discriminate.
Qed.

Lemma joinlines_app a b : a <> [] -> b <> [] -> joinlines (a ++ b) = joinlines a ++ newline :: joinlines b.
Proof.
  intros A B. induction a as [|l a IH]; [congruence|].
  destruct a as [|l' a].
  - cbn [app]. now rewrite joinlines_cons by assumption.
  - change ((l :: l' :: a) ++ b) with (l :: ((l' :: a) ++ b)).
    rewrite joinlines_cons by discriminate. rewrite IH by discriminate.
    rewrite (joinlines_cons l (l' :: a)) by discriminate. now rewrite <- app_assoc.
Qed.

(** A list of lines with something added to the last. *)
Definition addlast (ls : list text) (x : text) : list text := removelast ls ++ [last ls [] ++ x].

Lemma joinlines_addlast ls x : ls <> [] -> joinlines (addlast ls x) = joinlines ls ++ x.
Proof.
  intros NE. unfold addlast. rewrite (app_removelast_last [] NE) at 3.
  destruct (removelast ls) as [|a l]; [reflexivity|].
  rewrite !joinlines_app by discriminate. cbn [joinlines]. now rewrite <- app_assoc.
Qed.

(** ** The lines of a tree *)

Section Tree_ind.
Variable P : tree -> Prop.
Hypothesis HL : forall n, P (Leaf n).
Hypothesis HD : forall kids, Forall (fun k => P (snd k)) kids -> P (Dir kids).

Fixpoint tree_induction (t : tree) : P t :=
  match t with
  | Leaf n => HL n
  | Dir kids =>
      HD kids ((fix go l : Forall (fun k => P (snd k)) l :=
                  match l with
                  | [] => Forall_nil _
                  | k :: l => Forall_cons k (tree_induction (snd k)) (go l)
                  end) kids)
  end.
End Tree_ind.

(** Every box has something in it, and no name twice. *)
Fixpoint wf (t : tree) : Prop :=
  match t with
  | Leaf _ => True
  | Dir kids => kids <> [] /\ NoDup (map fst kids) /\ fold_right and True (map (fun k => wf (snd k)) kids)
  end.

Definition wfs (kids : list (text * tree)) : Prop :=
  NoDup (map fst kids) /\ Forall (fun k => wf (snd k)) kids.

Lemma fold_and {A} (P : A -> Prop) l : fold_right and True (map P l) <-> Forall P l.
Proof.
  induction l as [|x l IH]; cbn; split; intros H; auto.
  - constructor; tauto.
  - inversion H; subst. tauto.
Qed.

Lemma wf_Dir kids : wf (Dir kids) <-> kids <> [] /\ wfs kids.
Proof. cbn. rewrite (fold_and (fun k : text * tree => wf (snd k))). unfold wfs. tauto. Qed.

(** Every label of the tree satisfies [Q], and every leaf's topic [R]. *)
Fixpoint labels (Q : text -> Prop) (t : tree) : Prop :=
  match t with
  | Leaf _ => True
  | Dir kids => fold_right and True (map (fun k => Q (fst k) /\ labels Q (snd k)) kids)
  end.

Definition labelss (Q : text -> Prop) (kids : list (text * tree)) : Prop :=
  Forall (fun k => Q (fst k) /\ labels Q (snd k)) kids.

Lemma labels_Dir Q kids : labels Q (Dir kids) <-> labelss Q kids.
Proof. cbn. apply (fold_and (fun k : text * tree => Q (fst k) /\ labels Q (snd k))). Qed.

Section Lines.
Context (fmt : format) (m : list (string * text)).

Fixpoint tlines (seg : text) (t : tree) : list text :=
  match t with
  | Leaf n =>
      match fmt with
      | Mermaid => [getd n [] m ++ T "[" ++ seg ++ T "]"]
      | Graphviz => [getd n [] m ++ T " [label=" ++ seg ++ T "];"]
      end
  | Dir kids =>
      let inner := map (app IND) (flat_map (fun k => tlines (fst k) (snd k)) kids) in
      match fmt with
      | Mermaid => (T "subgraph " ++ lower seg ++ T " [" ++ seg ++ T "]") :: inner ++ [T "end"]
      | Graphviz =>
          [T "subgraph " ++ lower seg ++ T " {"; IND ++ T "cluster = true;"; IND ++ T "label = """ ++ seg ++ T """;"]
            ++ addlast inner (T "};")
      end
  end.

(** The name a leaf has in the drawing does not break lines and is not blank. *)
Hypothesis M : forall n, no_break (getd n [] m).

Lemma tlines_nonempty seg t : tlines seg t <> [].
Proof. destruct t; cbn; destruct fmt; discriminate. Qed.

Lemma addlast_good ls x : Forall good ls -> no_break x -> ls <> [] -> Forall good (addlast ls x).
Proof.
  intros F X NE. unfold addlast. apply Forall_app. rewrite (app_removelast_last [] NE) in F.
  apply Forall_app in F. destruct F as [F1 F2]. split; [exact F1|]. inversion F2; subst. constructor; [|constructor].
  destruct H1 as [N W]. apply good_with; auto.
Qed.

Lemma no_break_lit s : forallb (fun c => negb (line_break c)) (T s) = true -> no_break (T s).
Proof. intros F c I. rewrite forallb_forall in F. specialize (F c I). now apply negb_true_iff in F. Qed.

Lemma lower_no_break s : no_break s -> forallb name_char s = true -> no_break (lower s).
Proof.
  intros _ F. apply no_break_name. unfold lower. eapply forallb_map_imp; [|exact F]. intros c. apply name_lower.
Qed.

Lemma flat_nonempty {A B} (f : A -> list B) l : l <> [] -> (forall x, f x <> []) -> flat_map f l <> [].
Proof. destruct l as [|x l]; [congruence|]. intros _ H. cbn. specialize (H x). destruct (f x); [congruence|discriminate]. Qed.

Lemma not_white_app_r a b : forallb white b = false -> forallb white (a ++ b) = false.
Proof. intros W. rewrite forallb_app, W. apply andb_false_r. Qed.

Ltac nb := repeat (apply no_break_app; split); auto using no_break_lit, no_break_name.
Ltac wh := repeat first [reflexivity | apply not_white_app_r].

Lemma tlines_good : forall t seg,
  forallb name_char seg = true -> labels (fun s => forallb name_char s = true) t -> wf t -> Forall good (tlines seg t).
Proof.
  induction t as [n|kids IH] using tree_induction; intros seg S L W.
  - cbn [tlines]. destruct fmt; (constructor; [|constructor]); (split; [nb|]).
    + apply not_white_app_r. reflexivity.
    + apply not_white_app_r. reflexivity.
  - apply labels_Dir in L. apply wf_Dir in W. destruct W as [NE W].
    assert (F : Forall good (map (app IND) (flat_map (fun k => tlines (fst k) (snd k)) kids))).
    { apply Forall_forall. intros l I. apply in_map_iff in I. destruct I as (l' & <- & I).
      apply good_IND. apply in_flat_map in I. destruct I as (k & Ik & Il).
      rewrite Forall_forall in IH. unfold labelss in L. rewrite Forall_forall in L. destruct (L k Ik) as [L1 L2].
      destruct W as [_ W]. rewrite Forall_forall in W. specialize (IH k Ik (fst k) L1 L2 (W k Ik)).
      rewrite Forall_forall in IH. auto. }
    assert (SL : no_break (lower seg)) by (apply lower_no_break; auto using no_break_name).
    cbn [tlines]. destruct fmt.
    + constructor.
      * split; [nb|]. reflexivity.
      * apply Forall_app. split; [exact F|]. constructor; [|constructor]. split; [nb|reflexivity].
    + apply Forall_app. split.
      * constructor; [split; [nb|reflexivity]|].
        constructor; [apply good_IND; split; [nb|reflexivity]|].
        constructor; [apply good_IND; split; [nb|reflexivity]|]. constructor.
      * apply addlast_good; auto.
        -- nb.
        -- intros E. apply map_eq_nil in E. revert E. apply flat_nonempty; auto. intros k. apply tlines_nonempty.
Qed.

Lemma node_string_lines : forall t seg,
  forallb name_char seg = true -> labels (fun s => forallb name_char s = true) t -> wf t ->
  joinlines (node_string fmt m seg t ++ [[]]) = unlines (tlines seg t).
Proof.
  induction t as [n|kids IH] using tree_induction; intros seg S L W.
  - cbn [node_string tlines]. destruct fmt; apply joinlines_unlines; discriminate.
  - pose proof (tlines_good (Dir kids) seg S L W) as G.
    apply labels_Dir in L. apply wf_Dir in W. destruct W as [NE W].
    assert (E : concat (map (fun k => indent (joinlines (node_string fmt m (fst k) (snd k) ++ [[]]))) kids) =
                unlines (map (app IND) (flat_map (fun k => tlines (fst k) (snd k)) kids))).
    { unfold unlines at 1. rewrite flat_map_concat_map, map_map. rewrite <- flat_map_concat_map.
      rewrite <- flat_map_concat_map. clear NE G. revert IH L W. induction kids as [|k kids IHk]; intros IH L W; [reflexivity|].
      cbn [flat_map]. inversion IH; subst. inversion L; subst. destruct W as [W1 W2]. inversion W1; subst. inversion W2; subst.
      rewrite flat_map_app. rewrite IHk; auto; [|split; auto]. f_equal.
      destruct H3 as [Q1 Q2]. rewrite H1 by auto. rewrite indent_unlines by (apply tlines_good; auto).
      unfold unlines. now rewrite !flat_map_concat_map, map_map. }
    assert (NE' : map (app IND) (flat_map (fun k => tlines (fst k) (snd k)) kids) <> []).
    { intros Z. apply map_eq_nil in Z. revert Z. apply flat_nonempty; auto. intros k. apply tlines_nonempty. }
    cbn [node_string tlines]. rewrite E. rewrite removelast_unlines by assumption.
    set (inner := map (app IND) (flat_map (fun k => tlines (fst k) (snd k)) kids)) in *.
    destruct fmt.
    + rewrite <- (joinlines_unlines (_ :: inner ++ [T "end"])) by discriminate.
      set (sub := T "subgraph " ++ lower seg ++ T " [" ++ seg ++ T "]").
      replace ((sub :: inner ++ [T "end"]) ++ [[]]) with ((sub :: inner) ++ [T "end"; []])
        by (cbn [app]; now rewrite <- app_assoc).
      rewrite (joinlines_app (sub :: inner)) by discriminate.
      rewrite (joinlines_cons sub inner) by assumption.
      change ([sub; joinlines inner; T "end"] ++ [[]]) with ([sub; joinlines inner] ++ [T "end"; []]).
      rewrite (joinlines_app [sub; joinlines inner]) by discriminate. reflexivity.
    + assert (I1 : indent (T "cluster = true;") = IND ++ T "cluster = true;") by reflexivity.
      assert (I2 : indent (T "label = """ ++ seg ++ T """;") = IND ++ T "label = """ ++ seg ++ T """;").
      { apply indent_line. split; [nb|]. reflexivity. }
      rewrite I1, I2. rewrite <- joinlines_unlines by discriminate.
      set (sub := T "subgraph " ++ lower seg ++ T " {"). set (l1 := IND ++ T "cluster = true;").
      set (l2 := IND ++ T "label = """ ++ seg ++ T """;").
      assert (NA : addlast inner (T "};") <> []) by (unfold addlast; destruct (removelast inner); discriminate).
      change ([sub; l1; l2; joinlines inner ++ T "};"] ++ [[]]) with ([sub; l1; l2] ++ [joinlines inner ++ T "};"] ++ [[]]).
      rewrite <- app_assoc. rewrite (joinlines_app [sub; l1; l2]) by discriminate.
      rewrite (joinlines_app [sub; l1; l2] (addlast inner (T "};") ++ [[]]))
        by (first [discriminate | destruct (addlast inner (T "};")); discriminate]).
      do 2 f_equal. rewrite (joinlines_app (addlast inner (T "};"))) by (auto; discriminate).
      rewrite joinlines_addlast by assumption. reflexivity.
Qed.

(** 260-267: the text of all boxes, but for its last line feed. *)
Definition tops (kids : list (text * tree)) : list text :=
  map (app IND) (flat_map (fun k => tlines (fst k) (snd k)) kids).

Lemma structure_lines kids : kids <> [] -> labelss (fun s => forallb name_char s = true) kids -> wfs kids ->
  graph_structure_string fmt m kids = joinlines (tops kids) /\ tops kids <> [] /\ Forall good (tops kids).
Proof.
  intros NE L W.
  assert (NE' : tops kids <> []).
  { intros Z. apply map_eq_nil in Z. revert Z. apply flat_nonempty; auto. intros k. apply tlines_nonempty. }
  assert (F : Forall good (flat_map (fun k => tlines (fst k) (snd k)) kids)).
  { apply Forall_forall. intros l I. apply in_flat_map in I. destruct I as (k & Ik & Il).
    unfold labelss in L. rewrite Forall_forall in L. destruct (L k Ik). destruct W as [_ W]. rewrite Forall_forall in W.
    pose proof (tlines_good (snd k) (fst k)) as G. rewrite Forall_forall in G; auto. }
  repeat split; auto.
  - rewrite <- removelast_unlines by assumption. unfold graph_structure_string. f_equal.
    unfold tops. clear NE NE' F. induction kids as [|k kids IH]; [reflexivity|].
    cbn [map concat flat_map]. rewrite map_app, unlines_app.
    inversion L; subst. destruct W as [W1 W2]. inversion W1; subst. inversion W2; subst. destruct H1 as [Q1 Q2].
    rewrite IH; auto; [|split; auto]. f_equal. rewrite node_string_lines by auto.
    apply indent_unlines. apply tlines_good; auto.
  - unfold tops. rewrite Forall_map. eapply Forall_impl; [|exact F]. intros l. apply good_IND.
Qed.

End Lines.

(** ** Events of a tree *)

(** Every leaf's topic satisfies [R]. *)
Fixpoint names (R : string -> Prop) (t : tree) : Prop :=
  match t with
  | Leaf n => R n
  | Dir kids => fold_right and True (map (fun k => names R (snd k)) kids)
  end.

Definition namess (R : string -> Prop) (kids : list (text * tree)) : Prop := Forall (fun k => names R (snd k)) kids.

Lemma names_Dir R kids : names R (Dir kids) <-> namess R kids.
Proof. cbn. apply (fold_and (fun k : text * tree => names R (snd k))). Qed.

Section Events.
Context (idr : string -> text).

Fixpoint tevents (seg : text) (t : tree) : list event :=
  match t with
  | Leaf n => [Node (idr n) seg]
  | Dir kids => Open (lower seg) :: Label seg :: flat_map (fun k => tevents (fst k) (snd k)) kids ++ [Close]
  end.

Fixpoint tnodes (pre : list text) (seg : text) (t : tree) : list (text * list text) :=
  match t with
  | Leaf n => [(idr n, pre ++ [seg])]
  | Dir kids => flat_map (fun k => tnodes (pre ++ [seg]) (fst k) (snd k)) kids
  end.

Fixpoint tboxes (pre : list text) (seg : text) (t : tree) : list (list text * text) :=
  match t with
  | Leaf n => []
  | Dir kids => flat_map (fun k => tboxes (pre ++ [seg]) (fst k) (snd k)) kids ++ [(pre ++ [seg], lower seg)]
  end.

Lemma paint_tree : forall t seg stack evs p,
  paint stack evs = Some p ->
  paint stack (tevents seg t ++ evs) =
    Some (mkPicture (tnodes (rev (map snd stack)) seg t ++ p_nodes p) (p_links p)
                    (tboxes (rev (map snd stack)) seg t ++ p_boxes p)).
Proof.
  induction t as [n|kids IH] using tree_induction; intros seg stack evs p E.
  - cbn. rewrite E. reflexivity.
  - cbn [tevents app paint].
    assert (E' : paint ((lower seg, seg) :: stack) (Close :: evs) =
                 Some (mkPicture (p_nodes p) (p_links p) ((rev (map snd stack) ++ [seg], lower seg) :: p_boxes p))).
    { cbn. rewrite E. reflexivity. }
    rewrite <- app_assoc. cbn [app]. clear E.
    revert E'. generalize (Close :: evs).
    set (st := (lower seg, seg) :: stack) in *.
    assert (ES : rev (map snd st) = rev (map snd stack) ++ [seg]) by reflexivity.
    cbn [tnodes tboxes]. rewrite <- ES.
    intros l E'.
    enough (X : paint st (flat_map (fun k => tevents (fst k) (snd k)) kids ++ l) =
      Some (mkPicture (flat_map (fun k => tnodes (rev (map snd st)) (fst k) (snd k)) kids ++ p_nodes p) (p_links p)
             (flat_map (fun k => tboxes (rev (map snd st)) (fst k) (snd k)) kids ++ (rev (map snd st), lower seg) :: p_boxes p))).
    { rewrite X. f_equal. f_equal. now rewrite <- app_assoc. }
    clearbody st. clear ES. rename E' into E''.
    induction kids as [|k kids IHk]; cbn [flat_map app].
    + exact E''.
    + inversion IH; subst. specialize (IHk H2). rewrite <- app_assoc.
      rewrite (H1 _ _ _ _ IHk). cbn [p_nodes p_links p_boxes]. now rewrite <- !app_assoc.
Qed.

Lemma paint_trees kids : forall evs p,
  paint [] evs = Some p ->
  paint [] (flat_map (fun k => tevents (fst k) (snd k)) kids ++ evs) =
    Some (mkPicture (flat_map (fun k => tnodes [] (fst k) (snd k)) kids ++ p_nodes p) (p_links p)
                    (flat_map (fun k => tboxes [] (fst k) (snd k)) kids ++ p_boxes p)).
Proof.
  induction kids as [|k kids IH]; intros evs p E; cbn [flat_map app].
  - rewrite E. destruct p; reflexivity.
  - rewrite <- app_assoc. rewrite (paint_tree _ _ _ _ _ (IH _ _ E)). cbn [p_nodes p_links p_boxes map rev].
    now rewrite <- !app_assoc.
Qed.

Lemma paint_links ls : paint [] (map (fun l => Link (fst l) (snd l)) ls) = Some (mkPicture [] ls []).
Proof. induction ls as [|[a b] ls IH]; cbn; [reflexivity|]. rewrite IH. reflexivity. Qed.

End Events.

(** ** Reading Mermaid *)

Lemma mermaid_line_IND l : mermaid_line (IND ++ l) = mermaid_line l.
Proof.
  unfold mermaid_line. assert (E : snd (span blank (IND ++ l)) = snd (span blank l)).
  { cbn. destruct (span blank l). reflexivity. }
  rewrite E. reflexivity.
Qed.

Lemma mermaid_lines_app a b :
  mermaid_lines (a ++ b) =
  match mermaid_lines a, mermaid_lines b with Some x, Some y => Some (x ++ y) | _, _ => None end.
Proof.
  induction a as [|l a IH]; cbn.
  - destruct (mermaid_lines b); reflexivity.
  - rewrite IH. destruct (mermaid_line l), (mermaid_lines a), (mermaid_lines b); auto. now rewrite app_assoc.
Qed.

Lemma mermaid_lines_IND ls : mermaid_lines (map (app IND) ls) = mermaid_lines ls.
Proof. induction ls as [|l ls IH]; cbn [map mermaid_lines]; auto. rewrite mermaid_line_IND, IH. reflexivity. Qed.

Definition mermaid_ok (s : text) : Prop :=
  s <> [] /\ forallb name_char s = true /\ small s <> list_ascii_of_string "end".

Definition uuid_ok (s : text) : Prop := s <> [] /\ forallb uuid_char s = true.

Lemma mermaid_ok_name s : mermaid_ok s -> mermaid_name s = true.
Proof.
  intros (NE & F & E). unfold mermaid_name. rewrite F. rewrite !same_neq; auto.
  intros ->. apply E. reflexivity.
Qed.

Lemma mermaid_ok_lower s : mermaid_ok s -> mermaid_ok (lower s).
Proof.
  intros (NE & F & E). repeat split.
  - destruct s; [congruence|discriminate].
  - unfold lower. eapply forallb_map_imp; [|exact F]. apply name_lower.
  - rewrite lower_is_small by assumption. now rewrite small_small.
Qed.

Lemma uuid_ok_name s : uuid_ok s -> mermaid_name s = true.
Proof.
  intros (NE & F). unfold mermaid_name. rewrite (forallb_imp _ _ s uuid_char_name F). rewrite !same_neq; auto.
  intros ->. discriminate.
Qed.

Lemma uuid_head u x r : uuid_ok u -> x = "["%char \/ x = " "%char ->
  snd (span blank (u ++ x :: r)) = u ++ x :: r /\
  same (u ++ x :: r) [] = false /\ same (u ++ x :: r) (T "end") = false /\
  after (T "subgraph ") (u ++ x :: r) = None.
Proof.
  intros (NE & F) X. destruct u as [|c s]; [congruence|]. cbn in F. apply andb_true_iff in F. destruct F as [C F].
  assert (B : blank c = false) by (revert C; allchars c; auto; discriminate).
  assert (S : is "s" c = false) by (revert C; allchars c; auto; discriminate).
  repeat split.
  - cbn. rewrite B. reflexivity.
  - apply same_neq. intros E.
    assert (I : In x (T "end")) by (rewrite <- E; apply in_app_iff; right; left; reflexivity).
    cbn in I. destruct X; subst x; repeat (destruct I as [I|I]; [discriminate|]); destruct I.
  - cbn [app after T]. unfold T. cbn [after]. rewrite S. reflexivity.
Qed.

Lemma read_node u lab : uuid_ok u -> mermaid_ok lab -> mermaid_line (u ++ T "[" ++ lab ++ T "]") = Some [Node u lab].
Proof.
  intros U L. destruct (uuid_head u "[" (lab ++ T "]") U (or_introl eq_refl)) as (E1 & E2 & E3 & E4).
  unfold mermaid_line. change (T "[" ++ lab ++ T "]") with ("["%char :: lab ++ T "]").
  rewrite E1, E2, E3, E4.
  rewrite span_all; [|exact (forallb_imp _ _ u uuid_char_name (proj2 U))|reflexivity].
  change (after (T "[") ("["%char :: lab ++ T "]")) with (Some (lab ++ T "]")).
  cbv beta iota. rewrite span_all; [|apply L|reflexivity].
  rewrite (uuid_ok_name _ U), (mermaid_ok_name _ L). rewrite same_refl. reflexivity.
Qed.

Lemma read_link u v : uuid_ok u -> uuid_ok v -> mermaid_line (u ++ T " --> " ++ v) = Some [Link u v].
Proof.
  intros U V. destruct (uuid_head u " " (T "--> " ++ v) U (or_intror eq_refl)) as (E1 & E2 & E3 & E4).
  unfold mermaid_line. change (T " --> " ++ v) with (" "%char :: T "--> " ++ v).
  rewrite E1, E2, E3, E4.
  rewrite span_all; [|exact (forallb_imp _ _ u uuid_char_name (proj2 U))|reflexivity].
  change (after (T "[") (" "%char :: T "--> " ++ v)) with (@None text).
  change (after (T " --> ") (" "%char :: T "--> " ++ v)) with (Some v).
  cbv beta iota. rewrite (uuid_ok_name _ U), (uuid_ok_name _ V). reflexivity.
Qed.

Lemma read_open s : mermaid_ok s ->
  mermaid_line (T "subgraph " ++ lower s ++ T " [" ++ s ++ T "]") = Some [Open (lower s); Label s].
Proof.
  intros S. pose proof (mermaid_ok_lower _ S) as L. unfold mermaid_line.
  set (r := lower s ++ T " [" ++ s ++ T "]").
  change (snd (span blank (T "subgraph " ++ r))) with (T "subgraph " ++ r).
  assert (E2 : same (T "subgraph " ++ r) [] = false) by (apply same_neq; discriminate).
  assert (E3 : same (T "subgraph " ++ r) (T "end") = false) by (apply same_neq; discriminate).
  rewrite E2, E3, after_app. unfold r.
  rewrite span_all; [|apply L|reflexivity]. rewrite after_app.
  rewrite span_all; [|apply S|reflexivity].
  rewrite (mermaid_ok_name _ L), (mermaid_ok_name _ S). rewrite same_refl. reflexivity.
Qed.

Section Mermaid_tree.
Context (m : list (string * text)) (idr : string -> text).

Definition mermaid_id (n : string) : Prop := getd n [] m = idr n /\ uuid_ok (idr n).

Lemma read_tree : forall t seg, mermaid_ok seg -> labels mermaid_ok t -> names mermaid_id t ->
  mermaid_lines (tlines Mermaid m seg t) = Some (tevents idr seg t).
Proof.
  induction t as [n|kids IH] using tree_induction; intros seg S L N.
  - cbn [tlines mermaid_lines tevents]. destruct N as [E U]. rewrite E. rewrite read_node by assumption. reflexivity.
  - apply labels_Dir in L. apply names_Dir in N. cbn [tlines tevents mermaid_lines].
    rewrite read_open by assumption. rewrite mermaid_lines_app, mermaid_lines_IND.
    enough (X : mermaid_lines (flat_map (fun k => tlines Mermaid m (fst k) (snd k)) kids) =
                Some (flat_map (fun k => tevents idr (fst k) (snd k)) kids)) by (rewrite X; reflexivity).
    induction kids as [|k kids IHk]; [reflexivity|].
    inversion IH; subst. inversion L; subst. inversion N; subst. cbn [flat_map]. rewrite mermaid_lines_app.
    destruct H3. rewrite H1 by assumption. rewrite IHk by assumption. reflexivity.
Qed.

Lemma read_trees kids : labelss mermaid_ok kids -> namess mermaid_id kids ->
  mermaid_lines (tops Mermaid m kids) = Some (flat_map (fun k => tevents idr (fst k) (snd k)) kids).
Proof.
  intros L N. unfold tops. rewrite mermaid_lines_IND.
  induction kids as [|k kids IHk]; [reflexivity|].
  inversion L; subst. inversion N; subst. cbn [flat_map]. rewrite mermaid_lines_app.
  destruct H1. rewrite read_tree by assumption. rewrite IHk by assumption. reflexivity.
Qed.

End Mermaid_tree.

(** The lines of joined lines. *)
Lemma lines_line l s : no_break l -> lines (l ++ newline :: s) = l :: lines s.
Proof.
  induction l as [|c l IH]; intros N; [reflexivity|]. cbn [app lines].
  assert (E : is eol c = false).
  { specialize (N c (or_introl eq_refl)). revert N. allchars c; auto; discriminate. }
  rewrite E, IH by (intros d I; apply N; right; exact I). reflexivity.
Qed.

Lemma lines_one l : no_break l -> lines l = [l].
Proof.
  induction l as [|c l IH]; intros N; [reflexivity|]. cbn [lines].
  assert (E : is eol c = false).
  { specialize (N c (or_introl eq_refl)). revert N. allchars c; auto; discriminate. }
  rewrite E, IH by (intros d I; apply N; right; exact I). reflexivity.
Qed.

Lemma lines_unlines ls s : Forall no_break ls -> lines (unlines ls ++ s) = ls ++ lines s.
Proof.
  induction 1 as [|l ls N F IH]; [reflexivity|].
  unfold unlines. cbn [flat_map]. rewrite <- !app_assoc. cbn [app]. rewrite lines_line by assumption.
  f_equal. exact IH.
Qed.

Lemma lines_joined ls s : ls <> [] -> Forall no_break ls -> lines (joinlines ls ++ newline :: s) = ls ++ lines s.
Proof.
  intros NE F. rewrite <- (lines_unlines ls s F). f_equal.
  rewrite (app_removelast_last [] NE). destruct (removelast ls) as [|a l].
  - cbn. unfold unlines. cbn [flat_map]. rewrite app_nil_r. now rewrite <- app_assoc.
  - rewrite joinlines_app by discriminate. rewrite <- removelast_unlines by discriminate.
    rewrite unlines_app. unfold unlines at 3. cbn [flat_map joinlines]. rewrite app_nil_r.
    assert (E : removelast (unlines (a :: l)) ++ [newline] = unlines (a :: l)).
    { clear. generalize a. induction l as [|b l IH]; intros c.
      - unfold unlines. cbn [flat_map]. rewrite app_nil_r. rewrite removelast_app by discriminate. cbn. now rewrite app_nil_r.
      - change (unlines (c :: b :: l)) with ((c ++ [newline]) ++ unlines (b :: l)).
        rewrite removelast_app.
        + rewrite <- app_assoc. now rewrite IH.
        + unfold unlines. cbn [flat_map]. destruct b; discriminate. }
    rewrite <- E at 2. rewrite <- !app_assoc. cbn [app]. reflexivity.
Qed.

(** ** Reading DOT *)

Definition lexes (m : mode) (a : text) (m' : mode) (ts : list token) : Prop :=
  forall b, tokens m (a ++ b) = option_map (app ts) (tokens m' b).

Lemma lexes_app m a m1 ts1 b m2 ts2 : lexes m a m1 ts1 -> lexes m1 b m2 ts2 -> lexes m (a ++ b) m2 (ts1 ++ ts2).
Proof.
  intros A B r. rewrite <- app_assoc, A, B. destruct (tokens m2 r); cbn; [|reflexivity]. now rewrite app_assoc.
Qed.

Lemma lexes_nil m : lexes m [] m [].
Proof. intros b. cbn. destruct (tokens m b); reflexivity. Qed.

Lemma lexes_char m c m' ts : scan m c = Some (m', ts) -> lexes m [c] m' ts.
Proof. intros E b. cbn. rewrite E. destruct (tokens m' b); reflexivity. Qed.

Lemma lexes_cons m c m1 ts1 a m2 ts2 : scan m c = Some (m1, ts1) -> lexes m1 a m2 ts2 -> lexes m (c :: a) m2 (ts1 ++ ts2).
Proof. intros E. apply (lexes_app m [c]). now apply lexes_char. Qed.

(** Reading a literal, character by character. *)
Fixpoint run (m : mode) (a : text) : option (mode * list token) :=
  match a with
  | [] => Some (m, [])
  | c :: a =>
      match scan m c with
      | Some (m1, t1) => match run m1 a with Some (m2, t2) => Some (m2, t1 ++ t2) | None => None end
      | None => None
      end
  end.

Lemma lexes_run a : forall m m' ts, run m a = Some (m', ts) -> lexes m a m' ts.
Proof.
  induction a as [|c a IH]; intros m m' ts E.
  - injection E as <- <-. apply lexes_nil.
  - cbn in E. destruct (scan m c) as [[m1 t1]|] eqn:S; [|discriminate].
    destruct (run m1 a) as [[m2 t2]|] eqn:R; [|discriminate]. injection E as <- <-.
    eapply lexes_cons; eauto.
Qed.

Definition dot_ok (s : text) : Prop :=
  (exists c r, s = c :: r /\ (letter c || is "_" c) = true /\ forallb dot_char r = true) /\ keyword s = false.

Lemma dot_ok_name s : dot_ok s -> forallb name_char s = true.
Proof.
  intros ((c & r & -> & C & F) & _). cbn. rewrite (dot_char_name _ (start_dot _ C)).
  exact (forallb_imp _ _ _ dot_char_name F).
Qed.

Lemma dot_ok_lower s : dot_ok s -> dot_ok (lower s).
Proof.
  intros S. pose proof (dot_ok_name _ S) as N. destruct S as ((c & r & -> & C & F) & K). split.
  - exists (lower_char c), (lower r). split; [reflexivity|]. split; [now apply start_lower|].
    unfold lower. eapply forallb_map_imp; [|exact F]. apply dot_lower.
  - unfold keyword in *. rewrite lower_is_small by assumption. now rewrite small_small.
Qed.

Lemma lexes_word_more r : forallb dot_char r = true -> forall w, lexes (InWord w) r (InWord (w ++ r)) [].
Proof.
  induction r as [|c r IH]; intros F w.
  - rewrite app_nil_r. apply lexes_nil.
  - cbn in F. apply andb_true_iff in F. destruct F as [C F].
    replace (w ++ c :: r) with ((w ++ [c]) ++ r) by now rewrite <- app_assoc.
    apply (lexes_cons _ _ (InWord (w ++ [c])) []).
    + cbn [scan]. now rewrite (dot_word _ C).
    + now apply IH.
Qed.

Lemma lexes_word s : dot_ok s -> lexes Idle s (InWord s) [].
Proof.
  intros ((c & r & -> & C & F) & _). destruct (start_word _ C) as (W & S & Q).
  apply (lexes_cons _ _ (InWord [c]) []).
  - cbn [scan]. unfold fresh. rewrite S, Q, W. reflexivity.
  - change (c :: r) with ([c] ++ r). now apply lexes_word_more.
Qed.

Lemma lexes_quoted_more s : forallb name_char s = true -> forall w, lexes (InQuotes w) s (InQuotes (w ++ s)) [].
Proof.
  induction s as [|c s IH]; intros F w.
  - rewrite app_nil_r. apply lexes_nil.
  - cbn in F. apply andb_true_iff in F. destruct F as [C F]. destruct (name_unquoted _ C) as [Q B].
    replace (w ++ c :: s) with ((w ++ [c]) ++ s) by now rewrite <- app_assoc.
    apply (lexes_cons _ _ (InQuotes (w ++ [c])) []).
    + cbn [scan]. now rewrite Q, B.
    + now apply IH.
Qed.

Lemma lexes_quoted s : forallb name_char s = true -> lexes Idle (T """" ++ s ++ T """") Idle [Quoted s].
Proof.
  intros F. change [Quoted s] with ([] ++ [] ++ [Quoted s]).
  apply (lexes_app _ _ (InQuotes [])); [now apply lexes_run|].
  apply (lexes_app _ _ (InQuotes s)); [now apply (lexes_quoted_more s F [])|]. now apply lexes_run.
Qed.

(** Lines that are read one by one. *)
Inductive lexlines : list text -> list token -> Prop :=
| lexlines_nil : lexlines [] []
| lexlines_cons l ls t ts : lexes Idle l Idle t -> lexlines ls ts -> lexlines (l :: ls) (t ++ ts).

Lemma lexlines_app a ta b tb : lexlines a ta -> lexlines b tb -> lexlines (a ++ b) (ta ++ tb).
Proof. induction 1; cbn; auto. intros B. rewrite <- app_assoc. constructor; auto. Qed.

Lemma lexes_IND l t : lexes Idle l Idle t -> lexes Idle (IND ++ l) Idle t.
Proof. intros H. change t with ([] ++ t). eapply lexes_app; [now apply lexes_run|exact H]. Qed.

Lemma lexlines_IND ls ts : lexlines ls ts -> lexlines (map (app IND) ls) ts.
Proof. induction 1; cbn [map]; constructor; auto using lexes_IND. Qed.

Lemma lexlines_addlast ls ts x tx : lexlines ls ts -> ls <> [] -> lexes Idle x Idle tx -> lexlines (addlast ls x) (ts ++ tx).
Proof.
  induction 1 as [|l ls t ts L F IH]; intros NE X; [congruence|].
  destruct ls as [|l' ls].
  - inversion F; subst. unfold addlast. cbn [removelast last app]. rewrite app_nil_r.
    rewrite <- (app_nil_r (t ++ tx)). constructor; [|constructor]. eapply lexes_app; eauto.
  - change (addlast (l :: l' :: ls) x) with (l :: addlast (l' :: ls) x). rewrite <- app_assoc. constructor; auto.
    apply IH; auto. discriminate.
Qed.

Lemma lexes_newline : lexes Idle [newline] Idle [].
Proof. now apply lexes_run. Qed.

Lemma lexlines_unlines ls ts : lexlines ls ts -> lexes Idle (unlines ls) Idle ts.
Proof.
  induction 1 as [|l ls t ts L F IH]; [apply lexes_nil|].
  unfold unlines. cbn [flat_map]. eapply lexes_app; [|exact IH].
  rewrite <- (app_nil_r t). eapply lexes_app; [exact L|apply lexes_newline].
Qed.

Lemma lexlines_joined ls ts : lexlines ls ts -> lexes Idle (joinlines ls) Idle ts.
Proof.
  induction 1 as [|l ls t ts L F IH]; [apply lexes_nil|].
  destruct ls as [|l' ls].
  - inversion F; subst. now rewrite app_nil_r.
  - rewrite joinlines_cons by discriminate. eapply lexes_app; [exact L|].
    change ts with ([] ++ ts). change (newline :: joinlines (l' :: ls)) with ([newline] ++ joinlines (l' :: ls)).
    eapply lexes_app; [apply lexes_newline|exact IH].
Qed.

Section Dot_tree.
Context (m : list (string * text)) (idr : string -> text).

Definition dot_id (n : string) : Prop := getd n [] m = T """" ++ idr n ++ T """" /\ uuid_ok (idr n).

Fixpoint ttoks (seg : text) (t : tree) : list token :=
  match t with
  | Leaf n => [Quoted (idr n); Sym "["; Word (T "label"); Sym "="; Word seg; Sym "]"; Sym ";"]
  | Dir kids =>
      [Word (T "subgraph"); Word (lower seg); Sym "{"; Word (T "cluster"); Sym "="; Word (T "true"); Sym ";";
       Word (T "label"); Sym "="; Quoted seg; Sym ";"]
        ++ flat_map (fun k => ttoks (fst k) (snd k)) kids ++ [Sym "}"; Sym ";"]
  end.

Lemma uuid_ok_chars u : uuid_ok u -> forallb name_char u = true.
Proof. intros [_ F]. exact (forallb_imp _ _ u uuid_char_name F). Qed.

Lemma lex_tree : forall t seg, dot_ok seg -> labels dot_ok t -> names dot_id t -> wf t ->
  lexlines (tlines Graphviz m seg t) (ttoks seg t).
Proof.
  induction t as [n|kids IH] using tree_induction; intros seg S L N W.
  - cbn [tlines ttoks]. destruct N as [E U]. rewrite E.
    rewrite <- (app_nil_r [Quoted _; _; _; _; _; _; _]). constructor; [|constructor].
    change [Quoted (idr n); Sym "["; Word (T "label"); Sym "="; Word seg; Sym "]"; Sym ";"] with
      ([Quoted (idr n)] ++ [Sym "["; Word (T "label"); Sym "="] ++ [] ++ [Word seg; Sym "]"; Sym ";"]).
    eapply lexes_app; [apply lexes_quoted; now apply uuid_ok_chars|].
    eapply lexes_app; [now apply lexes_run|].
    eapply lexes_app; [now apply lexes_word|]. apply lexes_run. reflexivity.
  - apply labels_Dir in L. apply names_Dir in N. apply wf_Dir in W. destruct W as [NE [_ W]].
    cbn [tlines ttoks].
    change [Word (T "subgraph"); Word (lower seg); Sym "{"; Word (T "cluster"); Sym "="; Word (T "true"); Sym ";";
            Word (T "label"); Sym "="; Quoted seg; Sym ";"] with
      ([Word (T "subgraph"); Word (lower seg); Sym "{"] ++ [Word (T "cluster"); Sym "="; Word (T "true"); Sym ";"] ++
       [Word (T "label"); Sym "="; Quoted seg; Sym ";"] ++ []).
    apply lexlines_app.
    + constructor; [|constructor; [|constructor; [|constructor]]].
      * change [Word (T "subgraph"); Word (lower seg); Sym "{"] with
          ([Word (T "subgraph")] ++ [] ++ [Word (lower seg); Sym "{"]).
        eapply lexes_app; [now apply lexes_run|].
        eapply lexes_app; [apply lexes_word; now apply dot_ok_lower|]. now apply lexes_run.
      * now apply lexes_run.
      * apply lexes_IND. change [Word (T "label"); Sym "="; Quoted seg; Sym ";"] with
          ([Word (T "label"); Sym "="] ++ [Quoted seg] ++ [Sym ";"]).
        change (T "label = """ ++ seg ++ T """;") with (T "label = " ++ T """" ++ seg ++ T """" ++ T ";").
        eapply lexes_app; [now apply lexes_run|].
        replace (T """" ++ seg ++ T """" ++ T ";") with ((T """" ++ seg ++ T """") ++ T ";") by now rewrite <- !app_assoc.
        eapply lexes_app; [apply lexes_quoted; now apply dot_ok_name|]. now apply lexes_run.
    + apply lexlines_addlast.
      * apply lexlines_IND. clear NE. induction kids as [|k kids IHk]; [constructor|].
        inversion IH; subst. inversion L; subst. inversion N; subst. inversion W; subst. destruct H3.
        cbn [flat_map]. apply lexlines_app; auto.
      * intros E. apply map_eq_nil in E. revert E. apply flat_nonempty; auto. intros k. apply tlines_nonempty.
      * now apply lexes_run.
Qed.

Lemma lex_trees kids : labelss dot_ok kids -> namess dot_id kids -> Forall (fun k => wf (snd k)) kids ->
  lexlines (tops Graphviz m kids) (flat_map (fun k => ttoks (fst k) (snd k)) kids).
Proof.
  intros L N W. unfold tops. apply lexlines_IND. induction kids as [|k kids IHk]; [constructor|].
  inversion L; subst. inversion N; subst. inversion W; subst. destruct H1.
  cbn [flat_map]. apply lexlines_app; auto. apply lex_tree; auto.
Qed.

Lemma option_map_app {A} (a b : list A) (o : option (list A)) :
  option_map (app a) (option_map (app b) o) = option_map (app (a ++ b)) o.
Proof. destruct o; cbn; [|reflexivity]. now rewrite app_assoc. Qed.

Lemma option_map_cons {A} (a : A) (b : list A) (o : option (list A)) :
  option_map (cons a) (option_map (app b) o) = option_map (app (a :: b)) o.
Proof. destruct o; reflexivity. Qed.

Lemma ident_word w : keyword w = false -> ident (Word w) = Some w.
Proof. intros K. cbn [ident]. now rewrite K. Qed.

Lemma parse_tree : forall t seg ts, dot_ok seg -> labels dot_ok t ->
  statements (ttoks seg t ++ ts) = option_map (app (tevents idr seg t)) (statements ts).
Proof.
  induction t as [n|kids IH] using tree_induction; intros seg ts S L.
  - cbn [ttoks app tevents].
    change (statements (Quoted (idr n) :: Sym "[" :: Word (T "label") :: Sym "=" :: Word seg :: Sym "]" :: Sym ";" :: ts))
      with (match ident (Word seg) with
            | Some y => option_map (cons (Node (idr n) y)) (statements ts)
            | None => None
            end).
    rewrite ident_word by apply S. destruct (statements ts); reflexivity.
  - apply labels_Dir in L. cbn [ttoks app tevents].
    pose proof (dot_ok_lower _ S) as SL. set (rest := (flat_map (fun k => ttoks (fst k) (snd k)) kids ++ [Sym "}"; Sym ";"]) ++ ts).
    change (statements (Word (T "subgraph") :: Word (lower seg) :: Sym "{" :: Word (T "cluster") :: Sym "=" :: Word (T "true")
              :: Sym ";" :: Word (T "label") :: Sym "=" :: Quoted seg :: Sym ";" :: rest))
      with (match ident (Word (lower seg)) with
            | Some id => option_map (cons (Open id)) (option_map (cons (Label seg)) (statements rest))
            | None => None
            end).
    rewrite ident_word by apply SL.
    assert (E : statements rest =
                option_map (app (flat_map (fun k => tevents idr (fst k) (snd k)) kids ++ [Close])) (statements ts)).
    { unfold rest. rewrite <- app_assoc. cbn [app].
      assert (C : statements (Sym "}" :: Sym ";" :: ts) = option_map (app [Close]) (statements ts))
        by (cbn; destruct (statements ts); reflexivity).
      revert C. generalize (Sym "}" :: Sym ";" :: ts). intros l C. clear rest S SL.
      induction kids as [|k kids IHk]; [exact C|]. inversion IH; subst. inversion L; subst. destruct H3.
      cbn [flat_map]. rewrite <- !app_assoc. rewrite H1 by assumption. rewrite IHk by assumption.
      now rewrite option_map_app. }
    rewrite E. rewrite option_map_cons, option_map_cons. reflexivity.
Qed.

Lemma parse_trees kids ts : labelss dot_ok kids ->
  statements (flat_map (fun k => ttoks (fst k) (snd k)) kids ++ ts) =
  option_map (app (flat_map (fun k => tevents idr (fst k) (snd k)) kids)) (statements ts).
Proof.
  intros L. induction kids as [|k kids IHk].
  - cbn. destruct (statements ts); reflexivity.
  - inversion L; subst. destruct H1. cbn [flat_map]. rewrite <- !app_assoc. rewrite parse_tree by assumption.
    rewrite IHk by assumption. now rewrite option_map_app.
Qed.

End Dot_tree.
