(* C80: the drawing of a graph says what the graph is. *)

From Coq Require Import String Ascii List Arith Bool Lia Permutation.
From Verif Require Import Dict DagModel PruneModel DrawModel DrawSpec DrawProofs DrawTreeProofs.
From Verif Require DagSpec DagProofs.
Import ListNotations.
Open Scope bool_scope.

(** ** Both formats together *)

Definition ends (g : list (string * list string)) : list (string * string) :=
  flat_map (fun e => map (fun c => (fst e, c)) (sorted (snd e))) g.

Lemma ends_lines {A} (f : string -> string -> A) g :
  flat_map (fun e => map (fun c => f (fst e) c) (sorted (snd e))) g = map (fun x => f (fst x) (snd x)) (ends g).
Proof.
  unfold ends. rewrite !flat_map_concat_map, concat_map, map_map. f_equal. apply map_ext. intros e. now rewrite map_map.
Qed.

Lemma ends_spec g a b : In (a, b) (ends g) <-> connected g a b.
Proof.
  unfold ends, connected. rewrite in_flat_map. split.
  - intros ([n ts] & I & J). apply in_map_iff in J. destruct J as (c & E & J). injection E as <- <-.
    exists ts. split; [exact I|]. exact (proj1 (sorted_In _ _) J).
  - intros (ts & I & J). exists (a, ts). split; [exact I|]. apply in_map_iff. exists b. split; [reflexivity|]. now apply sorted_In.
Qed.

Lemma ends_NoDup g : graph_ok g -> NoDup (ends g).
Proof.
  intros [ND F]. unfold ends. apply NoDup_flat.
  - now apply NoDup_map_inv in ND.
  - intros [n ts] I. apply (Permutation_NoDup (l := map (pair n) ts)).
    + apply Permutation_map. apply Permutation_sym, sorted_perm.
    + pose proof (F _ _ I) as N. clear -N. induction N as [|x l NI N IH]; cbn; constructor; auto.
      intros I. apply in_map_iff in I. destruct I as (y & E & I). congruence.
  - intros [n ts] [n' ts'] [a b] I I' J J'. apply in_map_iff in J, J'. destruct J as (c & E & _), J' as (c' & E' & _).
    cbn in *. assert (n = n') by congruence. subst n'.
    pose proof (In_get (K := string) n ts g ND I). pose proof (In_get (K := string) n ts' g ND I'). congruence.
Qed.

Section Both.
Context (fmt : format) (uuid : nat -> text) (g : list (string * list string)).
Hypothesis U : uuids uuid.
Hypothesis G : graph_ok g.

Let m := node_map fmt uuid 0 (keys g) [].
Definition node_id (n : string) : text := uuid (idx n (keys g)).

Lemma map_get n : get n m = if in_dec string_dec n (keys g) then Some (wrap fmt (node_id n)) else None.
Proof. unfold m, node_id. rewrite node_map_get; [reflexivity|apply G|reflexivity]. Qed.

Lemma map_getd n : In n (keys g) -> getd n [] m = wrap fmt (node_id n).
Proof. intros I. unfold getd. rewrite map_get. destruct (in_dec string_dec n (keys g)); [reflexivity|contradiction]. Qed.

Lemma node_id_ok n : uuid_ok (node_id n).
Proof. apply U. Qed.

Lemma no_break_uuid n : no_break (node_id n).
Proof. apply no_break_name. apply uuid_ok_chars. apply node_id_ok. Qed.

Lemma no_break_lit' s : forallb (fun c => negb (line_break c)) (T s) = true -> no_break (T s).
Proof. intros F c I. rewrite forallb_forall in F. specialize (F c I). now apply negb_true_iff in F. Qed.

Lemma map_no_break n : no_break (getd n [] m).
Proof.
  unfold getd. rewrite map_get. destruct (in_dec string_dec n (keys g)); [|intros c []].
  unfold wrap. destruct fmt; [apply no_break_uuid|]. apply no_break_app. split; [now apply no_break_lit'|].
  apply no_break_app. split; [apply no_break_uuid|now apply no_break_lit'].
Qed.

Lemma no_break_link a b : no_break a -> no_break b -> no_break (link_line fmt a b).
Proof.
  intros A B. unfold link_line. destruct fmt; repeat (apply no_break_app; split); auto; now apply no_break_lit'.
Qed.

Lemma good_link a b : no_break a -> no_break b -> good (link_line fmt a b).
Proof.
  intros A B. split; [now apply no_break_link|]. unfold link_line.
  destruct fmt; apply not_white_app_r; reflexivity.
Qed.

Definition link_lines : list text :=
  map (fun x => link_line fmt (getd (fst x) [] m) (getd (snd x) [] m)) (ends g).

Lemma link_lines_good : Forall good link_lines.
Proof. unfold link_lines. rewrite Forall_map. apply Forall_forall. intros x _. apply good_link; apply map_no_break. Qed.

Lemma covered_comes n : In n (map fst g) -> ~ covered (keys g) n <-> uncovered g n.
Proof.
  intros I. unfold uncovered, covered, comes_after, keys. split; intros H X; apply H.
  - destruct X as (x & (l1 & l2 & E & J) & S). exists l1, l2, x. auto.
  - destruct X as (l1 & l2 & x & E & J & S). exists x. split; eauto.
Qed.

(** graph_util.py 196-221, as a whole. *)
Lemma constructed :
  match construct fmt m g [] [] with
  | Some (kids, acc) =>
      wfs kids /\ (forall p n, leaf_at p kids n <-> In n (keys g) /\ p = split (T n) /\ uncovered g n) /\
      acc = unlines link_lines /\
      (forall a b, connected g a b -> In b (keys g)) /\
      ~ (exists x n, comes_after g n x /\ inside n x)
  | None =>
      (exists a b, connected g a b /\ ~ In b (keys g)) \/ (exists x n, comes_after g n x /\ inside n x)
  end.
Proof.
  pose proof (construct_spec fmt m g [] [] []) as C. cbn [app] in C.
  assert (K : forall n, In n (keys g) -> get n m <> None).
  { intros n I. rewrite map_get. destruct (in_dec string_dec n (keys g)); [discriminate|contradiction]. }
  assert (K' : forall n, get n m = None -> ~ In n (keys g)) by (intros n E I; now apply (K n I)).
  assert (K'' : forall n, get n m <> None -> In n (keys g)).
  { intros n E. rewrite map_get in E. destruct (in_dec string_dec n (keys g)); [assumption|congruence]. }
  specialize (C (proj1 G) Inv_nil K). destruct (construct fmt m g [] []) as [[kids acc]|].
  - destruct C as ([W L] & -> & D & B). split; [exact W|]. split; [|split; [|split]].
    + intros p n. rewrite L. split; intros (I & E & C); (split; [exact I|]; split; [exact E|]); now apply covered_comes.
    + f_equal. unfold link_lines. apply (ends_lines (fun a c => link_line fmt (getd a [] m) (getd c [] m))).
    + intros a b (ts & I & J). apply K''. eapply D; eauto.
    + intros (x & n & (l1 & l2 & E & J) & S).
      unfold keys in *. apply in_split in J. destruct J as (l3 & l4 & ->).
      assert (X : exists g1 ts g2, g = g1 ++ (n, ts) :: g2 /\ map fst g1 = l1 ++ x :: l3).
      { clear -E. rewrite app_comm_cons, app_assoc in E. revert E. generalize (l1 ++ x :: l3). intros l E.
        revert l E. induction g as [|[a ts] g' IH]; intros l E; [destruct l; discriminate|].
        destruct l as [|b l]; cbn in E.
        - injection E as -> E. exists [], ts, g'. auto.
        - injection E as -> E. destruct (IH l E) as (g1 & ts' & g2 & -> & F). exists ((b, ts) :: g1), ts', g2.
          split; [reflexivity|]. cbn. now rewrite F. }
      destruct X as (g1 & ts & g2 & E' & F). apply (B g1 n ts g2 x E'); [|exact S].
      rewrite F. apply in_app_iff. right. now left.
  - destruct C as [(n & ts & c & I & J & Z)|(g1 & n & ts & g2 & x & E & I & S)].
    + left. exists n, c. split; [exists ts; auto|]. now apply K'.
    + right. exists x, n. split; [|exact S]. unfold keys in I. apply in_split in I. destruct I as (l1 & l2 & I).
      exists l1, (l2 ++ n :: map fst g2). split.
      * rewrite E, map_app, I. cbn [map fst]. now rewrite <- app_assoc.
      * apply in_app_iff. right. now left.
Qed.

(** What the readers find is what the graph says. *)
Lemma picture_shows kids bx : g <> [] ->
  wfs kids -> (forall p n, leaf_at p kids n <-> In n (keys g) /\ p = split (T n) /\ uncovered g n) ->
  shows (mkPicture (map (fun l => (node_id (snd l), fst l)) (leaves kids))
                   (map (fun x => (node_id (fst x), node_id (snd x))) (ends g)) bx)
        (uncovered g) g \/ ~ (forall a b, connected g a b -> In b (keys g)).
Proof.
  intros NE W L.
  destruct (Forall_dec (fun x => In (snd x) (keys g)) (fun x => in_dec string_dec (snd x) (keys g)) (ends g)) as [C|C].
  2:{ right. intros X. apply C. apply Forall_forall. intros [a b] I. apply ends_spec in I. cbn. eauto. }
  left. rewrite Forall_forall in C.
  assert (INJ : forall a b, In a (keys g) -> In b (keys g) -> node_id a = node_id b -> a = b).
  { intros a b A B E. unfold node_id in E. apply U in E. exact (idx_inj _ _ _ A B E). }
  assert (LV : forall p n, In (p, n) (leaves kids) -> In n (keys g) /\ p = split (T n) /\ uncovered g n).
  { intros p n I. apply leaves_spec in I; auto. now apply L. }
  exists node_id. unfold keys in *. cbn [p_nodes p_links].
  assert (NL : NoDup (leaves kids)) by now apply leaves_NoDup.
  split; [exact INJ|]. split; [|split; [|split; [|split; [|split; [|split]]]]].
  - rewrite map_map. cbn [fst]. revert NL LV. generalize (leaves kids). clear -INJ.
    induction l as [|[p n] l IH]; intros N LV; cbn; [constructor|]. inversion N; subst. constructor.
    + intros I. apply in_map_iff in I. destruct I as ([p' n'] & E & I). cbn in E.
      destruct (LV p n (or_introl eq_refl)) as (In1 & -> & _). destruct (LV p' n' (or_intror I)) as (In2 & -> & _).
      apply INJ in E; auto. subst n'. contradiction.
    + apply IH; auto. intros p' n' I. apply LV. now right.
  - intros i path I. apply in_map_iff in I. destruct I as ([p n] & E & I). injection E as <- <-. cbn in *.
    destruct (LV p n I) as (In1 & -> & _). rewrite full_name_split. split; [|auto]. intros s J. now apply split_no_slash in J.
  - intros n I S. exists (split (T n)). split; [|apply full_name_split]. apply in_map_iff. exists (split (T n), n).
    split; [reflexivity|]. apply leaves_spec; auto. apply L. auto.
  - intros i path I. apply in_map_iff in I. destruct I as ([p n] & E & I). injection E as <- <-. cbn in *.
    destruct (LV p n I) as (In1 & -> & S). now rewrite full_name_split.
  - pose proof (ends_NoDup g G) as NE'.
    assert (KE : forall a b, In (a, b) (ends g) -> In a (map fst g) /\ In b (map fst g)).
    { intros a b I. split; [|exact (C _ I)]. apply ends_spec in I. destruct I as (ts & I & _).
      apply in_map_iff. exists (a, ts). auto. }
    revert NE' KE. generalize (ends g). clear -INJ. induction l as [|[a b] l IH]; intros N K; cbn; [constructor|].
    inversion N; subst. constructor.
    + intros I. apply in_map_iff in I. destruct I as ([a' b'] & E & I). cbn in E. injection E as E1 E2.
      destruct (K a b (or_introl eq_refl)), (K a' b' (or_intror I)). apply INJ in E1; auto. apply INJ in E2; auto.
      subst. contradiction.
    + apply IH; auto. intros a' b' I. apply K. now right.
  - intros a b I. apply in_map_iff. exists (a, b). split; [reflexivity|]. now apply ends_spec.
  - intros x y I. apply in_map_iff in I. destruct I as ([a b] & E & I). injection E as <- <-. apply ends_spec in I. eauto.
Qed.

Lemma split_slash ps : ps <> [] -> (forall s, In s ps -> ~ In "/"%char s) -> split (slash ps) = ps.
Proof.
  intros NE F. induction ps as [|p ps IH]; [congruence|]. destruct ps as [|q ps].
  - cbn. apply split_part. apply F. now left.
  - rewrite slash_cons by discriminate. rewrite split_app, split_part by (apply F; now left).
    rewrite IH; [reflexivity|discriminate|]. intros s I. apply F. now right.
Qed.

Lemma picture_boxed kids nodes links :
  (forall n p, In n (keys g) -> In p (split (T n)) -> forallb name_char p = true) ->
  wfs kids -> (forall p n, leaf_at p kids n <-> In n (keys g) /\ p = split (T n) /\ uncovered g n) ->
  boxed (mkPicture nodes links (boxes kids)) (uncovered g) g.
Proof.
  intros F W L. split; [now apply boxes_NoDup|]. intros path id. cbn [p_boxes]. rewrite boxes_spec by assumption.
  assert (X : forall q r n, leaf_at (q ++ r) kids n -> forall s, In s q -> ~ In "/"%char s /\ forallb name_char s = true).
  { intros q r n Lf s I. apply L in Lf. destruct Lf as (J & E & _).
    assert (I' : In s (split (T n))) by (rewrite <- E; apply in_app_iff; auto).
    split; [now apply split_no_slash in I'|eauto]. }
  split.
  - intros (NP & -> & r & n & NR & Lf). split; [exact NP|]. split; [intros s I; apply (X _ _ _ Lf s I)|]. split.
    + apply lower_is_small. apply (X _ _ _ Lf). rewrite (app_removelast_last [] NP) at 2. apply in_app_iff. right. now left.
    + pose proof Lf as Lf'. apply L in Lf'. destruct Lf' as (I & E & S). exists n. split; [exact I|]. split; [exact S|].
      apply inside_split. exists r. split; [exact NR|]. rewrite <- E. f_equal. unfold full_name. rewrite T_concat.
      symmetry. apply split_slash; auto. intros s J. apply (X _ _ _ Lf s J).
  - intros (NP & NS & -> & n & I & S & IN). split; [exact NP|].
    apply inside_split in IN. destruct IN as (r & NR & E). unfold full_name in E. rewrite T_concat, split_slash in E by assumption.
    assert (Lf : leaf_at (path ++ r) kids n) by (apply L; rewrite E; auto).
    split; [|eauto]. symmetry. apply lower_is_small. apply (X _ _ _ Lf). rewrite (app_removelast_last [] NP) at 2.
    apply in_app_iff. right. now left.
Qed.

End Both.

Lemma closed_ends g : (forall a b, connected g a b -> In b (keys g)) ->
  forall a b, In (a, b) (ends g) -> In a (keys g) /\ In b (keys g).
Proof.
  intros C a b I. apply ends_spec in I. split; [|eauto]. destruct I as (ts & I & _).
  apply in_map_iff. exists (a, ts). auto.
Qed.

Lemma joinlines3 a b c : joinlines [a; b; c] = a ++ newline :: b ++ newline :: c.
Proof. reflexivity. Qed.

Lemma mermaid_text d uuid g kids acc : uuids uuid -> graph_ok g -> g <> [] -> In d directions ->
  (forall n, In n (keys g) -> fit_for_mermaid n) ->
  construct Mermaid (node_map Mermaid uuid 0 (keys g) []) g [] [] = Some (kids, acc) ->
  acc = unlines (link_lines Mermaid uuid g) -> wfs kids -> (forall a b, connected g a b -> In b (keys g)) ->
  read_mermaid (joinlines [T "flowchart " ++ T d; graph_structure_string Mermaid (node_map Mermaid uuid 0 (keys g) []) kids; indent acc]) =
  Some (mkPicture (map (fun l => (node_id uuid g (snd l), fst l)) (leaves kids))
                  (map (fun x => (node_id uuid g (fst x), node_id uuid g (snd x))) (ends g)) (boxes kids)).
Proof.
  intros U G NE D F C -> W CL. set (m := node_map Mermaid uuid 0 (keys g) []) in *.
  assert (FQ : forall n p, In n (keys g) -> In p (split (T n)) -> mermaid_ok p).
  { intros n p I J. apply split_is_part in J. exact (F n I p J). }
  assert (FR : forall n, In n (keys g) -> mermaid_id m (node_id uuid g) n).
  { intros n I. split; [exact (map_getd Mermaid uuid g G n I)|now apply node_id_ok]. }
  destruct (construct_labels Mermaid m mermaid_ok (mermaid_id m (node_id uuid g)) _ _ _ _ _ C FQ FR (Forall_nil _) (Forall_nil _) (or_introl NE) wfs_nil)
    as (L & N & NK).
  assert (L' : labelss (fun s => forallb name_char s = true) kids).
  { destruct (construct_labels Mermaid m (fun s => forallb name_char s = true) (fun _ => True) _ _ _ _ _ C
                (fun n p I J => proj1 (proj2 (FQ n p I J))) (fun _ _ => I) (Forall_nil _) (Forall_nil _) (or_introl NE) wfs_nil) as (L' & _).
    exact L'. }
  destruct (structure_lines Mermaid m (map_no_break Mermaid uuid g U G) kids NK L' W) as (E & TN & TG).
  rewrite E, joinlines3. rewrite indent_unlines by now apply link_lines_good.
  unfold read_mermaid.
  assert (ND : no_break (T "flowchart " ++ T d)).
  { apply no_break_app. split; [now apply no_break_lit'|].
    cbn in D. repeat (destruct D as [<-|D]; [now apply no_break_lit'|]). destruct D. }
  rewrite lines_line by exact ND. rewrite after_app.
  assert (DD : existsb (fun x => same (T d) (T x)) directions = true).
  { apply existsb_exists. exists d. split; [exact D|apply same_refl]. }
  rewrite DD. rewrite lines_joined; auto; [|eapply Forall_impl; [|exact TG]; intros l [X _]; exact X].
  rewrite <- (app_nil_r (unlines _)). rewrite lines_unlines.
  2:{ rewrite Forall_map. eapply Forall_impl; [|exact (link_lines_good Mermaid uuid g U G)]. intros l X. now apply good_IND. }
  rewrite !mermaid_lines_app. rewrite (read_trees m (node_id uuid g) kids L N). rewrite mermaid_lines_IND.
  assert (LL : mermaid_lines (link_lines Mermaid uuid g) =
               Some (map (fun l => Link (fst l) (snd l)) (map (fun x => (node_id uuid g (fst x), node_id uuid g (snd x))) (ends g)))).
  { unfold link_lines. pose proof (closed_ends g CL) as CE. revert CE. generalize (ends g).
    induction l as [|[a b] l IH]; intros CE; [reflexivity|]. cbn [map mermaid_lines fst snd].
    destruct (CE a b (or_introl eq_refl)) as [A B]. rewrite !map_getd by assumption. cbn [wrap].
    change (link_line Mermaid (node_id uuid g a) (node_id uuid g b)) with (node_id uuid g a ++ T " --> " ++ node_id uuid g b).
    rewrite read_link by (now apply node_id_ok). rewrite IH by (intros; apply CE; now right). reflexivity. }
  rewrite LL. cbn [lines mermaid_lines mermaid_line]. change (mermaid_line []) with (Some (@nil event)). cbv beta iota.
  rewrite !app_nil_r. rewrite (paint_trees _ _ _ _ (paint_links _)). cbn [p_nodes p_links p_boxes].
  rewrite !app_nil_r. rewrite nodes_leaves. reflexivity.
Qed.

Lemma joinlines5 a b c d e :
  joinlines [a; b; c; d; e] = a ++ newline :: b ++ newline :: c ++ newline :: d ++ newline :: e.
Proof. reflexivity. Qed.

Lemma statements_links ls ts :
  statements (flat_map (fun x => [Quoted (fst x); Arrow; Quoted (snd x); Sym ";"]) ls ++ ts) =
  option_map (app (map (fun l => Link (fst l) (snd l)) ls)) (statements ts).
Proof.
  induction ls as [|[a b] ls IH]; [cbn; destruct (statements ts); reflexivity|].
  cbn [flat_map app fst snd map].
  change (statements (Quoted a :: Arrow :: Quoted b :: Sym ";" :: ?x)) with (option_map (cons (Link a b)) (statements x)).
  rewrite IH. apply option_map_cons.
Qed.

Lemma dot_text d uuid g kids acc : uuids uuid -> graph_ok g -> g <> [] -> In d directions ->
  (forall n, In n (keys g) -> fit_for_dot n) ->
  construct Graphviz (node_map Graphviz uuid 0 (keys g) []) g [] [] = Some (kids, acc) ->
  acc = unlines (link_lines Graphviz uuid g) -> wfs kids -> (forall a b, connected g a b -> In b (keys g)) ->
  read_dot (joinlines [T "digraph EZ {"; indent (T "rankdir=""" ++ T d ++ T """");
                       graph_structure_string Graphviz (node_map Graphviz uuid 0 (keys g) []) kids; indent acc; T "}"]) =
  Some (mkPicture (map (fun l => (node_id uuid g (snd l), fst l)) (leaves kids))
                  (map (fun x => (node_id uuid g (fst x), node_id uuid g (snd x))) (ends g)) (boxes kids)).
Proof.
  intros U G NE D F C -> W CL. set (m := node_map Graphviz uuid 0 (keys g) []) in *.
  assert (FQ : forall n p, In n (keys g) -> In p (split (T n)) -> dot_ok p).
  { intros n p I J. apply split_is_part in J. exact (F n I p J). }
  assert (FR : forall n, In n (keys g) -> dot_id m (node_id uuid g) n).
  { intros n I. split; [exact (map_getd Graphviz uuid g G n I)|now apply node_id_ok]. }
  destruct (construct_labels Graphviz m dot_ok (dot_id m (node_id uuid g)) _ _ _ _ _ C FQ FR (Forall_nil _) (Forall_nil _) (or_introl NE) wfs_nil)
    as (L & N & NK).
  assert (L' : labelss (fun s => forallb name_char s = true) kids).
  { destruct (construct_labels Graphviz m (fun s => forallb name_char s = true) (fun _ => True) _ _ _ _ _ C
                (fun n p I J => dot_ok_name p (FQ n p I J)) (fun _ _ => I) (Forall_nil _) (Forall_nil _) (or_introl NE) wfs_nil) as (L' & _).
    exact L'. }
  destruct (structure_lines Graphviz m (map_no_break Graphviz uuid g U G) kids NK L' W) as (E & TN & TG).
  rewrite E, joinlines5. rewrite indent_unlines by now apply link_lines_good.
  set (nodes := map (fun x => (node_id uuid g (fst x), node_id uuid g (snd x))) (ends g)).
  set (ltoks := flat_map (fun x : text * text => [Quoted (fst x); Arrow; Quoted (snd x); Sym ";"]) nodes).
  assert (LL : lexlines (link_lines Graphviz uuid g) ltoks).
  { unfold ltoks, nodes, link_lines. pose proof (closed_ends g CL) as CE. revert CE. generalize (ends g).
    induction l as [|[a b] l IH]; intros CE; [constructor|]. cbn [map flat_map fst snd].
    destruct (CE a b (or_introl eq_refl)) as [A B]. rewrite !map_getd by assumption.
    constructor; [|apply IH; intros; apply CE; now right].
    cbn [wrap link_line].
    change [Quoted (node_id uuid g a); Arrow; Quoted (node_id uuid g b); Sym ";"] with
      ([Quoted (node_id uuid g a)] ++ [Arrow] ++ [Quoted (node_id uuid g b)] ++ [Sym ";"]).
    eapply lexes_app; [apply lexes_quoted; apply uuid_ok_chars; now apply node_id_ok|].
    eapply lexes_app; [now apply lexes_run|].
    eapply lexes_app; [apply lexes_quoted; apply uuid_ok_chars; now apply node_id_ok|]. now apply lexes_run. }
  pose proof (lex_trees m (node_id uuid g) kids L N (proj2 W)) as LT.
  assert (H2 : lexes Idle (indent (T "rankdir=""" ++ T d ++ T """")) Idle [Word (T "rankdir"); Sym "="; Quoted (T d)]).
  { cbn in D. repeat (destruct D as [<-|D]; [now apply lexes_run|]). destruct D. }
  assert (TK : tokens Idle (T "digraph EZ {" ++ newline :: indent (T "rankdir=""" ++ T d ++ T """") ++ newline ::
                 joinlines (tops Graphviz m kids) ++ newline :: unlines (map (app IND) (link_lines Graphviz uuid g)) ++ newline :: T "}") =
               Some ([Word (T "digraph"); Word (T "EZ"); Sym "{"] ++ [Word (T "rankdir"); Sym "="; Quoted (T d)] ++
                     flat_map (fun k => ttoks (node_id uuid g) (fst k) (snd k)) kids ++ ltoks ++ [Sym "}"])).
  { assert (NL : forall s, tokens Idle (newline :: s) = tokens Idle s).
    { intros s. change (newline :: s) with ([newline] ++ s). rewrite lexes_newline. now destruct (tokens Idle s). }
    assert (H1 : lexes Idle (T "digraph EZ {") Idle [Word (T "digraph"); Word (T "EZ"); Sym "{"]) by now apply lexes_run.
    rewrite H1, NL, H2, NL, (lexlines_joined _ _ LT), NL, (lexlines_unlines _ _ (lexlines_IND _ _ LL)), NL.
    change (tokens Idle (T "}")) with (Some [Sym "}"]). cbn [option_map]. reflexivity. }
  unfold read_dot. rewrite TK. cbn [app].
  change (ident (Word (T "EZ"))) with (Some (T "EZ")).
  change (says (Word (T "digraph")) "digraph" && is "{" "{") with true. cbv beta iota.
  change (statements (Word (T "rankdir") :: Sym "=" :: Quoted (T d) :: ?x)) with (statements x).
  rewrite (parse_trees (node_id uuid g) kids _ L). unfold ltoks. rewrite statements_links.
  change (statements [Sym "}"]) with (Some [Close]). cbn [option_map].
  rewrite !rev_app_distr. cbn [rev app].
  rewrite rev_app_distr, !rev_involutive.
  rewrite (paint_trees _ _ _ _ (paint_links _)). cbn [p_nodes p_links p_boxes].
  rewrite !app_nil_r. rewrite nodes_leaves. reflexivity.
Qed.

(** ** C80 *)

(** C80: a drawing is made unless a topic comes after one it is inside of, or a connection leads to
    a topic that is not in the graph. *)
Theorem C80_fails_exactly_when :
  forall fmt d uuid g,
    graph_ok g ->
    (graph_string fmt d uuid g = None <->
     (exists m n, comes_after g n m /\ inside n m) \/
     (exists a b, connected g a b /\ ~ In b (map fst g))).
Proof.
  intros fmt d uuid g G. pose proof (constructed fmt uuid g G) as C. unfold graph_string.
  destruct (construct fmt _ g [] []) as [[kids acc]|].
  - destruct C as (_ & _ & _ & C & N). split; [discriminate|]. intros [X|(a & b & X & Y)]; [contradiction|].
    exfalso. apply Y. exact (C a b X).
  - split; [|reflexivity]. intros _. destruct C as [X|X]; [right; exact X|left; exact X].
Qed.
Print Assumptions C80_fails_exactly_when.

Lemma empty_shows (bx : list (list text * text)) : shows (mkPicture [] [] bx) (uncovered []) [].
Proof.
  exists (fun _ => []). cbn. repeat split; try constructor; try tauto; intros; try tauto.
  destruct H as (ts & [] & _).
Qed.

Lemma empty_boxed : boxed (mkPicture [] [] []) (uncovered []) [].
Proof. split; [constructor|]. intros path id. cbn. split; [tauto|]. intros (_ & _ & _ & n & [] & _). Qed.

(** C80: read by the rules of Mermaid, a drawing shows the topics of the graph, each inside the boxes
    its name says, but for the topics that are inside a later one; it shows every connection, once,
    and nothing else. *)
Theorem C80_mermaid_says_what_the_graph_is :
  forall d uuid g s,
    uuids uuid -> graph_ok g -> In d directions -> (forall n, In n (map fst g) -> fit_for_mermaid n) ->
    graph_string Mermaid (list_ascii_of_string d) uuid g = Some s ->
    exists p, read_mermaid s = Some p /\ shows p (uncovered g) g /\ boxed p (uncovered g) g.
Proof.
  intros d uuid g s U G D F E. destruct g as [|e g'].
  - injection E as <-. exists (mkPicture [] [] []). split.
    + cbn in D. repeat (destruct D as [<-|D]; [reflexivity|]). destruct D.
    + split; [apply empty_shows|apply empty_boxed].
  - set (g := e :: g') in *. assert (NE : g <> []) by discriminate. clearbody g. clear e g'.
    pose proof (constructed Mermaid uuid g G) as C. unfold graph_string in E.
    destruct (construct Mermaid _ g [] []) as [[kids acc]|] eqn:K; [|discriminate].
    destruct C as (W & L & A & CL & _). injection E as <-. cbn [app].
    eexists. split; [exact (mermaid_text d uuid g kids acc U G NE D F K A W CL)|]. split.
    + destruct (picture_shows uuid g U G kids (boxes kids) NE W L) as [S|X]; [exact S|contradiction].
    + apply picture_boxed; auto. intros n p I J. apply split_is_part in J. apply (F n I p J).
Qed.
Print Assumptions C80_mermaid_says_what_the_graph_is.

(** C80: the same for Graphviz. *)
Theorem C80_dot_says_what_the_graph_is :
  forall d uuid g s,
    uuids uuid -> graph_ok g -> In d directions -> (forall n, In n (map fst g) -> fit_for_dot n) ->
    graph_string Graphviz (list_ascii_of_string d) uuid g = Some s ->
    exists p, read_dot s = Some p /\ shows p (uncovered g) g /\ boxed p (uncovered g) g.
Proof.
  intros d uuid g s U G D F E. destruct g as [|e g'].
  - injection E as <-. exists (mkPicture [] [] []). split.
    + cbn in D. repeat (destruct D as [<-|D]; [reflexivity|]). destruct D.
    + split; [apply empty_shows|apply empty_boxed].
  - set (g := e :: g') in *. assert (NE : g <> []) by discriminate. clearbody g. clear e g'.
    pose proof (constructed Graphviz uuid g G) as C. unfold graph_string in E.
    destruct (construct Graphviz _ g [] []) as [[kids acc]|] eqn:K; [|discriminate].
    destruct C as (W & L & A & CL & _). injection E as <-. cbn [app].
    eexists. split; [exact (dot_text d uuid g kids acc U G NE D F K A W CL)|]. split.
    + destruct (picture_shows uuid g U G kids (boxes kids) NE W L) as [S|X]; [exact S|contradiction].
    + apply picture_boxed; auto. intros n p I J. apply split_is_part in J. apply dot_ok_name. apply (F n I p J).
Qed.
Print Assumptions C80_dot_says_what_the_graph_is.

Lemma shows_weaken p (P Q : string -> Prop) g : (forall n, In n (map fst g) -> P n <-> Q n) -> shows p P g -> shows p Q g.
Proof.
  intros H (id & A & B & C & D & E & R). exists id. repeat (split; [assumption|]). split; [|split; [|exact R]].
  - intros n I X. apply D; auto. now apply H.
  - intros i path I. apply H; [now apply (C i path I)|]. now apply (E i).
Qed.

(** C80: the graph the server holds, whatever its history, if no topic is inside another: it is
    drawn, and all of it. *)
Theorem C80_the_graph_of_the_server :
  forall ops d uuid fmt,
    uuids uuid -> In d directions ->
    let g := d_graph (DagSpec.state_after ops) in
    g <> [] ->
    (forall m n, In m (map fst g) -> In n (map fst g) -> ~ inside n m) ->
    (forall n, In n (map fst g) -> match fmt with Mermaid => fit_for_mermaid n | Graphviz => fit_for_dot n end) ->
    exists s p,
      get_formatted_graph fmt (list_ascii_of_string d) uuid 0 g = Some s /\
      match fmt with Mermaid => read_mermaid s | Graphviz => read_dot s end = Some p /\
      shows p (fun _ => True) g.
Proof.
  intros ops d uuid fmt U D g NE PF F.
  pose proof (DagProofs.DInv_after ops) as V. pose proof (DagProofs.i_wf _ V) as W. fold g in W.
  assert (G : graph_ok g) by exact W.
  assert (CL : forall a b, connected g a b -> In b (map fst g)).
  { intros a b X. apply (DagProofs.i_nodes _ V b). exists a. right. exact X. }
  destruct (graph_string fmt (list_ascii_of_string d) uuid g) as [s|] eqn:E.
  2:{ apply C80_fails_exactly_when in E; auto. destruct E as [(m & n & (l1 & l2 & X & Y) & S)|(a & b & X & Y)].
      - exfalso. apply (PF m n); auto; rewrite X; apply in_app_iff; right; [now left|now right].
      - exfalso. apply Y. eauto. }
  assert (UN : forall n, In n (map fst g) -> uncovered g n <-> True).
  { intros n I. split; auto. intros _ (m & (l1 & l2 & X & Y) & S). apply (PF m n); auto.
    rewrite X. apply in_app_iff. right. now right. }
  assert (GF : get_formatted_graph fmt (list_ascii_of_string d) uuid 0 g = Some s).
  { unfold get_formatted_graph. destruct g; [congruence|exact E]. }
  destruct fmt.
  - destruct (C80_mermaid_says_what_the_graph_is d uuid g s U G D F E) as (p & R & S & _).
    exists s, p. split; [exact GF|]. split; [exact R|]. exact (shows_weaken p _ _ g UN S).
  - destruct (C80_dot_says_what_the_graph_is d uuid g s U G D F E) as (p & R & S & _).
    exists s, p. split; [exact GF|]. split; [exact R|]. exact (shows_weaken p _ _ g UN S).
Qed.
Print Assumptions C80_the_graph_of_the_server.

(** ** Cases and findings *)

Section Cases.
Open Scope string_scope.

(** Names uuid4 could give. *)
Definition counting (i : nat) : text := repeat "a"%char (S i).

Lemma counting_ok : uuids counting.
Proof.
  split.
  - intros i j E. apply (f_equal (@length _)) in E. unfold counting in E. rewrite !repeat_length in E. lia.
  - intros i. split; [discriminate|]. unfold counting. apply forallb_forall. intros c I. apply repeat_spec in I. now subst.
Qed.

(** The graph after some connections. *)
Definition connecting (l : list (string * string)) : graph :=
  d_graph (DagSpec.state_after (map (fun e => OConnect (fst e) (snd e) None) l)).

Definition demo : graph :=
  connecting [("SYS/A/OUT", "SYS/B/IN"); ("SYS/A/OUT", "LOG"); ("SYS/B/OUT", "LOG")].

Lemma fit_mermaid_check n :
  forallb (fun p => negb (same p []) && forallb name_char p && negb (same (small p) (T "end"))) (split (T n)) = true ->
  fit_for_mermaid n.
Proof.
  intros F p P. apply part_is_split in P. rewrite forallb_forall in F. specialize (F p P).
  rewrite !andb_true_iff, !negb_true_iff in F. destruct F as [[F1 F2] F3]. repeat split; auto.
  - intros ->. discriminate.
  - intros E. rewrite E in F3. discriminate.
Qed.

Lemma fit_dot_check n :
  forallb (fun p => match p with
                    | c :: r => (letter c || is "_" c) && forallb (fun c => letter c || digit c || is "_" c) r && negb (keyword p)
                    | [] => false
                    end) (split (T n)) = true ->
  fit_for_dot n.
Proof.
  intros F p P. apply part_is_split in P. rewrite forallb_forall in F. specialize (F p P).
  destruct p as [|c r]; [discriminate|]. rewrite !andb_true_iff, negb_true_iff in F. destruct F as [[F1 F2] F3].
  split; [eauto|exact F3].
Qed.

Example C80_case :
  uuids counting /\ demo <> [] /\
  (forall m n, In m (map fst demo) -> In n (map fst demo) -> ~ inside n m) /\
  (forall n, In n (map fst demo) -> fit_for_mermaid n /\ fit_for_dot n) /\
  option_map string_of_list_ascii (get_formatted_graph Mermaid (T "LR") counting 0 demo) =
    Some (String.concat (String newline "")
            ["flowchart LR"; "  subgraph sys [SYS]"; "    subgraph a [A]"; "      a[OUT]"; "    end";
             "    subgraph b [B]"; "      aa[IN]"; "      aaaa[OUT]"; "    end"; "  end"; "  aaa[LOG]";
             "  a --> aaa"; "  a --> aa"; "  aaaa --> aaa"; ""]).
Proof.
  split; [apply counting_ok|]. split; [intros E; apply (f_equal (@length _)) in E; vm_compute in E; discriminate E|]. split; [|split].
  - assert (X : forallb (fun m => forallb (fun n => match after (T (m ++ "/")) (T n) with Some _ => false | None => true end)
                                   (map fst demo)) (map fst demo) = true) by (vm_compute; reflexivity).
    intros m n I J [r E]. rewrite forallb_forall in X. specialize (X m I). rewrite forallb_forall in X. specialize (X n J).
    rewrite E in X. replace (T (m ++ "/" ++ r)) with (T (m ++ "/") ++ T r)%list in X by (rewrite !T_app, <- app_assoc; reflexivity).
    rewrite after_app in X. discriminate X.
  - intros n I. split; [apply fit_mermaid_check|apply fit_dot_check].
    + assert (X : forallb (fun n => forallb (fun p => negb (same p []) && forallb name_char p && negb (same (small p) (T "end")))
                                      (split (T n))) (map fst demo) = true) by (vm_compute; reflexivity).
      rewrite forallb_forall in X. exact (X n I).
    + assert (X : forallb (fun n => forallb (fun p => match p with
                    | c :: r => (letter c || is "_" c) && forallb (fun c => letter c || digit c || is "_" c) r && negb (keyword p)
                    | [] => false
                    end) (split (T n))) (map fst demo) = true) by (vm_compute; reflexivity).
      rewrite forallb_forall in X. exact (X n I).
  - vm_compute. reflexivity.
Qed.

(** C80 finding: a topic whose name begins with another topic's name and a slash spoils the drawing:
    after connect("A", "A/B") drawing fails with a TypeError; after connect("A/B", "A") the drawing
    leaves the topic A/B out (its arrow starts at a node without a label). *)
Theorem C80_topic_inside_topic_refuted :
  (forall fmt d uuid, get_formatted_graph fmt d uuid 0 (connecting [("A", "A/B")]) = None) /\
  exists s p,
    get_formatted_graph Mermaid (T "LR") counting 0 (connecting [("A/B", "A")]) = Some s /\
    read_mermaid s = Some p /\
    (forall i path, In (i, path) (p_nodes p) -> full_name path <> "A/B") /\
    exists a b, In (a, b) (p_links p) /\ ~ In a (map fst (p_nodes p)).
Proof.
  split.
  - intros fmt d uuid. change (graph_string fmt d uuid (connecting [("A", "A/B")]) = None).
    apply C80_fails_exactly_when.
    + split; [repeat constructor; cbn; intuition discriminate|]. intros n ts I. cbn in I.
      destruct I as [I|[I|[]]]; injection I as <- <-; repeat constructor; cbn; tauto.
    + left. exists "A", "A/B". split.
      * exists [], ["A/B"]. split; [reflexivity|now left].
      * exists "B". reflexivity.
  - eexists. eexists. split; [vm_compute; reflexivity|]. split; [vm_compute; reflexivity|]. split.
    + intros i path I. cbn in I. destruct I as [I|[]]. injection I as <- <-. vm_compute. discriminate.
    + eexists. eexists. split; [now left|]. cbn. intros [E|[]]. discriminate.
Qed.
Print Assumptions C80_topic_inside_topic_refuted.

(** C80 finding: compactified to level 3, the graph of a system holding a unit U beside a collection
    C of two units cannot be drawn: what is left is R and R/U, and drawing fails with a TypeError.
    If the unit comes first, it is left out of the drawing instead. *)
Theorem C80_compact_drawing_refuted :
  (forall fmt d uuid,
     get_formatted_graph fmt d uuid 3 (connecting [("R/C/V/OUT", "R/C/W/IN"); ("R/C/W/OUT", "R/U/IN")]) = None) /\
  exists s p,
    get_formatted_graph Mermaid (T "LR") counting 3 (connecting [("R/U/OUT", "R/C/V/IN"); ("R/C/V/OUT", "R/C/W/IN")]) = Some s /\
    read_mermaid s = Some p /\ length (p_nodes p) = 1 /\
    exists a b, In (a, b) (p_links p) /\ ~ In a (map fst (p_nodes p)).
Proof.
  split.
  - intros fmt d uuid.
    assert (E : get_formatted_graph fmt d uuid 3 (connecting [("R/C/V/OUT", "R/C/W/IN"); ("R/C/W/OUT", "R/U/IN")]) =
                graph_string fmt d uuid [("R", ["R/U"]); ("R/U", [])]).
    { assert (C : get_compactified_graph (map (fun e => (segments (fst e), map segments (snd e)))
                    (fst (prune_graph_connections (connecting [("R/C/V/OUT", "R/C/W/IN"); ("R/C/W/OUT", "R/U/IN")])))) 3 =
                  Some [(segments "R", [segments "R/U"]); (segments "R/U", [])]) by (vm_compute; reflexivity).
      unfold get_formatted_graph. rewrite C.
      assert (N : connecting [("R/C/V/OUT", "R/C/W/IN"); ("R/C/W/OUT", "R/U/IN")] <> []) by (intros E; apply (f_equal (@length _)) in E; vm_compute in E; discriminate E).
      destruct (connecting _); [contradiction|]. f_equal. }
    rewrite E. apply C80_fails_exactly_when.
    + split; [repeat constructor; cbn; intuition discriminate|]. intros n ts I. cbn in I.
      destruct I as [I|[I|[]]]; injection I as <- <-; repeat constructor; cbn; tauto.
    + left. exists "R", "R/U". split.
      * exists [], ["R/U"]. split; [reflexivity|now left].
      * exists "U". reflexivity.
  - eexists. eexists. split; [vm_compute; reflexivity|]. split; [vm_compute; reflexivity|]. split; [reflexivity|].
    eexists. eexists. split; [now left|]. cbn. intros [E|[]]. discriminate.
Qed.
Print Assumptions C80_compact_drawing_refuted.

(** C80 finding: two boxes can have one name: it is the last label alone, in lower case.  In the
    drawings of this graph, with units L/F and R/F, both boxes are called "f", so that Mermaid and
    Graphviz take them for one. *)
Theorem C80_boxes_have_different_names_refuted :
  exists g, graph_ok g /\ (forall n, In n (map fst g) -> fit_for_mermaid n) /\
  exists s p path1 path2 id,
    graph_string Mermaid (T "LR") counting g = Some s /\ read_mermaid s = Some p /\
    path1 <> path2 /\ In (path1, id) (p_boxes p) /\ In (path2, id) (p_boxes p).
Proof.
  exists [("L/F/OUT", ["R/F/IN"]); ("R/F/IN", [])]. split.
  { split; [repeat constructor; cbn; intuition discriminate|]. intros n ts I. cbn in I.
    destruct I as [I|[I|[]]]; injection I as <- <-; repeat constructor; cbn; tauto. }
  split. { intros n I. cbn in I. destruct I as [<-|[<-|[]]]; apply fit_mermaid_check; vm_compute; reflexivity. }
  eexists. eexists. exists [T "L"; T "F"], [T "R"; T "F"], (T "f").
  split; [vm_compute; reflexivity|]. split; [vm_compute; reflexivity|]. split; [discriminate|].
  split; vm_compute; auto.
Qed.
Print Assumptions C80_boxes_have_different_names_refuted.

(** C80 finding: Graphviz does not understand the drawing of a graph with a hyphen in a topic, as
    labels and box names are not quoted. *)
Theorem C80_dot_hyphen_refuted :
  exists g s, graph_ok g /\ (forall n, In n (map fst g) -> fit_for_mermaid n) /\
    graph_string Graphviz (T "LR") counting g = Some s /\ read_dot s = None.
Proof.
  exists [("eeg-raw", ["LOG"]); ("LOG", [])]. eexists. split.
  { split; [repeat constructor; cbn; intuition discriminate|]. intros n ts I. cbn in I.
    destruct I as [I|[I|[]]]; injection I as <- <-; repeat constructor; cbn; tauto. }
  split. { intros n I. cbn in I. destruct I as [<-|[<-|[]]]; apply fit_mermaid_check; vm_compute; reflexivity. }
  split; [vm_compute; reflexivity|]. vm_compute; reflexivity.
Qed.
Print Assumptions C80_dot_hyphen_refuted.

(** C80 finding: a unit named with a word one of the languages reserves makes the drawing unreadable:
    END for Mermaid (the box is named in lower case), NODE for Graphviz. *)
Theorem C80_reserved_words_refuted :
  (exists s, graph_string Mermaid (T "LR") counting [("END/OUT", ["LOG"]); ("LOG", [])] = Some s /\ read_mermaid s = None) /\
  (exists s, graph_string Graphviz (T "LR") counting [("NODE/OUT", ["LOG"]); ("LOG", [])] = Some s /\ read_dot s = None).
Proof. split; eexists; (split; [vm_compute; reflexivity|]); vm_compute; reflexivity. Qed.
Print Assumptions C80_reserved_words_refuted.

End Cases.
