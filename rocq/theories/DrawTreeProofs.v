(* Proofs for DrawProps: names and their segments; the tree of boxes (graph_util.py 204-215); the
   names of the nodes; the loop over the graph. *)

From Coq Require Import String Ascii List Arith Bool Lia Permutation.
From Verif Require Import Dict DrawModel DrawSpec DrawProofs.
Import ListNotations.
Open Scope bool_scope.

(** ** Segments *)

Fixpoint slash (ps : list text) : text :=
  match ps with
  | [] => []
  | [p] => p
  | p :: ps => p ++ "/"%char :: slash ps
  end.

Lemma slash_cons p ps : ps <> [] -> slash (p :: ps) = p ++ "/"%char :: slash ps.
Proof. destruct ps; [congruence|reflexivity]. Qed.

Lemma slash_app a b : a <> [] -> b <> [] -> slash (a ++ b) = slash a ++ "/"%char :: slash b.
Proof.
  intros A B. induction a as [|p a IH]; [congruence|]. destruct a as [|q a].
  - cbn [app]. now rewrite slash_cons.
  - change ((p :: q :: a) ++ b) with (p :: ((q :: a) ++ b)). rewrite slash_cons by discriminate.
    rewrite IH by discriminate. rewrite (slash_cons p (q :: a)) by discriminate. now rewrite <- app_assoc.
Qed.

Lemma split_nonempty s : split s <> [].
Proof.
  destruct s as [|c s]; cbn [split]; [intros E; discriminate E|].
  destruct (Ascii.eqb c "/"); [intros E; discriminate E|].
  destruct (split s); intros E; discriminate E.
Qed.

Lemma slash_split s : slash (split s) = s.
Proof.
  induction s as [|c s IH]; [reflexivity|]. cbn [split].
  pose proof (split_nonempty s) as NE.
  destruct (Ascii.eqb c "/") eqn:E.
  - apply Ascii.eqb_eq in E. subst c. rewrite slash_cons by assumption. now rewrite IH.
  - destruct (split s) as [|p ps]; [congruence|]. destruct ps as [|q ps].
    + cbn in *. now rewrite IH.
    + rewrite slash_cons by discriminate. rewrite slash_cons in IH by discriminate. cbn [app]. now rewrite IH.
Qed.

Lemma split_app a b : split (a ++ "/"%char :: b) = split a ++ split b.
Proof.
  induction a as [|c a IH].
  - cbn [app split]. rewrite Ascii.eqb_refl. reflexivity.
  - cbn [app split]. destruct (Ascii.eqb c "/") eqn:E.
    + cbn [app]. now rewrite IH.
    + rewrite IH. destruct (split a) as [|p ps] eqn:P; [now apply split_nonempty in P|]. reflexivity.
Qed.

Lemma split_part p : ~ In "/"%char p -> split p = [p].
Proof.
  induction p as [|c p IH]; intros N; [reflexivity|]. cbn [split].
  destruct (Ascii.eqb c "/") eqn:E.
  - apply Ascii.eqb_eq in E. subst c. contradiction N. left. reflexivity.
  - rewrite IH; [reflexivity|]. intros I. apply N. right. exact I.
Qed.

Lemma split_no_slash s p : In p (split s) -> ~ In "/"%char p.
Proof.
  revert p. induction s as [|c s IH]; intros p I.
  - destruct I as [<-|[]]. intros [].
  - cbn [split] in I. destruct (Ascii.eqb c "/") eqn:E.
    + destruct I as [<-|I]; [intros []|]. now apply IH.
    + apply Ascii.eqb_neq in E. destruct (split s) as [|q qs] eqn:P; [now apply split_nonempty in P|].
      destruct I as [<-|I].
      * intros [C|C]; [congruence|]. revert C. apply IH. left. reflexivity.
      * apply IH. right. exact I.
Qed.

Lemma split_inj a b : split a = split b -> a = b.
Proof. intros E. rewrite <- (slash_split a), <- (slash_split b). now rewrite E. Qed.

Lemma T_inj a b : T a = T b -> a = b.
Proof. intros E. rewrite <- (string_of_list_ascii_of_string a), <- (string_of_list_ascii_of_string b). now rewrite E. Qed.

Lemma T_app a b : T (a ++ b)%string = T a ++ T b.
Proof. induction a as [|c a IH]; cbn; [reflexivity|]. now rewrite IH. Qed.

Lemma T_concat ps : T (String.concat "/" (map string_of_list_ascii ps)) = slash ps.
Proof.
  induction ps as [|p ps IH]; [reflexivity|]. destruct ps as [|q ps].
  - cbn [map String.concat slash]. apply list_ascii_of_string_of_list_ascii.
  - rewrite slash_cons by discriminate. rewrite <- IH.
    change (map string_of_list_ascii (p :: q :: ps)) with (string_of_list_ascii p :: map string_of_list_ascii (q :: ps)).
    change (String.concat "/" (string_of_list_ascii p :: map string_of_list_ascii (q :: ps)))
      with (string_of_list_ascii p ++ "/" ++ String.concat "/" (map string_of_list_ascii (q :: ps)))%string.
    rewrite !T_app, list_ascii_of_string_of_list_ascii. reflexivity.
Qed.

Lemma full_name_split n : full_name (split (T n)) = n.
Proof. apply T_inj. unfold full_name. rewrite T_concat. apply slash_split. Qed.

Lemma inside_split n m : inside n m <-> exists r, r <> [] /\ split (T n) = split (T m) ++ r.
Proof.
  split.
  - intros [r ->]. exists (split (T r)). split; [apply split_nonempty|].
    rewrite T_app. change (T ("/" ++ r)%string) with ("/"%char :: T r). apply split_app.
  - intros (r & NE & E). exists (string_of_list_ascii (slash r)). apply T_inj.
    rewrite !T_app, list_ascii_of_string_of_list_ascii. rewrite <- (slash_split (T n)), E.
    rewrite slash_app by (auto; apply split_nonempty). rewrite slash_split. reflexivity.
Qed.

Lemma inside_trans a b c : inside a b -> inside b c -> inside a c.
Proof.
  rewrite !inside_split. intros (r & NR & E) (q & NQ & F). exists (q ++ r). split.
  - destruct q; [congruence|discriminate].
  - now rewrite E, F, app_assoc.
Qed.

Lemma after_some pre s r : after pre s = Some r <-> s = pre ++ r.
Proof.
  revert s. induction pre as [|a pre IH]; intros s; cbn.
  - split; congruence.
  - destruct s as [|c s]; [split; discriminate|]. unfold is. destruct (Ascii.eqb a c) eqn:E.
    + apply Ascii.eqb_eq in E. subst c. rewrite IH. split; [intros ->; reflexivity|]. intros X. now injection X.
    + apply Ascii.eqb_neq in E. split; [discriminate|]. intros X. injection X as X _. congruence.
Qed.

Lemma inside_dec n m : {inside n m} + {~ inside n m}.
Proof.
  destruct (after (T (m ++ "/")%string) (T n)) as [r|] eqn:A.
  - left. exists (string_of_list_ascii r). apply after_some in A. apply T_inj. rewrite A.
    rewrite !T_app, list_ascii_of_string_of_list_ascii. now rewrite <- app_assoc.
  - right. intros [r ->]. rewrite !T_app, app_assoc in A. now rewrite after_app in A.
Qed.

Lemma split_is_part n p : In p (split (T n)) -> part p n.
Proof.
  intros I. pose proof (split_no_slash _ _ I) as N. apply in_split in I. destruct I as (a & b & E).
  exists (match a with [] => [] | _ => slash a ++ ["/"%char] end),
         (match b with [] => [] | _ => "/"%char :: slash b end).
  repeat split; auto.
  - rewrite <- (slash_split (T n)), E. destruct a as [|x a].
    + cbn [app]. destruct b as [|y b].
      * cbn. now rewrite app_nil_r.
      * now rewrite slash_cons by discriminate.
    + rewrite slash_app by discriminate. rewrite <- app_assoc. cbn [app]. do 2 f_equal. destruct b as [|y b].
      * cbn. now rewrite app_nil_r.
      * now rewrite slash_cons by discriminate.
  - destruct a; eauto.
  - destruct b; eauto.
Qed.

Lemma part_is_split n p : part p n -> In p (split (T n)).
Proof.
  intros (a & b & E & N & A & B). rewrite E.
  assert (X : In p (split (p ++ b))).
  { destruct B as [->|[b' ->]].
    - rewrite app_nil_r, split_part by assumption. left. reflexivity.
    - rewrite split_app, split_part by assumption. left. reflexivity. }
  destruct A as [->|[a' ->]]; [exact X|].
  rewrite <- app_assoc. cbn [app]. rewrite split_app. apply in_app_iff. right. exact X.
Qed.

(** ** The tree *)

(** The topic at the end of a path. *)
Fixpoint leaf_at (path : list text) (kids : list (text * tree)) (n : string) : Prop :=
  match path with
  | [] => False
  | seg :: path =>
      match path with
      | [] => get seg kids = Some (Leaf n)
      | _ => exists ks, get seg kids = Some (Dir ks) /\ leaf_at path ks n
      end
  end.

Lemma leaf_at_one seg kids n : leaf_at [seg] kids n <-> get seg kids = Some (Leaf n).
Proof. reflexivity. Qed.

Lemma leaf_at_more seg p path kids n :
  leaf_at (seg :: p :: path) kids n <-> exists ks, get seg kids = Some (Dir ks) /\ leaf_at (p :: path) ks n.
Proof. reflexivity. Qed.

Lemma Forall_put {P : text * tree -> Prop} k v d : P (k, v) -> Forall P d -> Forall P (put k v d).
Proof.
  intros H F. induction F as [|[k' v'] d H' F IH]; cbn; [constructor; auto|].
  destruct (dec k k'); constructor; auto.
Qed.

Lemma wfs_nil : wfs [].
Proof. split; constructor. Qed.

Lemma put_nonempty (k : text) (v : tree) d : put k v d <> [].
Proof. destruct d as [|[k' v'] d]; cbn; [discriminate|]. destruct (dec k k'); discriminate. Qed.

Lemma wfs_put k v kids : wfs kids -> wf v -> wfs (put k v kids).
Proof. intros [N F] W. split; [exact (NoDup_keys_put k v kids N)|]. apply Forall_put; auto. Qed.

Lemma wfs_get k v kids : wfs kids -> get k kids = Some v -> wf v.
Proof. intros [_ F] G. apply get_In in G. rewrite Forall_forall in F. exact (F _ G). Qed.

Lemma plant_cons seg q path name kids :
  plant (seg :: q :: path) name kids =
  match get seg kids with
  | Some (Leaf _) => None
  | Some (Dir kids') => option_map (fun k => put seg (Dir k) kids) (plant (q :: path) name kids')
  | None => option_map (fun k => put seg (Dir k) kids) (plant (q :: path) name [])
  end.
Proof. reflexivity. Qed.

Lemma no_leaf path n : ~ leaf_at path [] n.
Proof. destruct path as [|s [|q path]]; cbn; [tauto|discriminate|]. intros (ks & E & _). discriminate. Qed.

Lemma plant_none path name : path <> [] -> forall kids,
  plant path name kids = None <-> exists p r n, r <> [] /\ path = p ++ r /\ leaf_at p kids n.
Proof.
  induction path as [|seg path IH]; intros NE kids; [congruence|].
  destruct path as [|q path].
  - cbn [plant]. split; [discriminate|]. intros (p & r & n & NR & E & L).
    destruct p as [|s p]; [destruct L|]. destruct p; [|discriminate]. destruct r; [congruence|discriminate].
  - rewrite plant_cons. specialize (IH ltac:(discriminate)).
    assert (X : forall ks, plant (q :: path) name ks = None <->
                option_map (fun k => put seg (Dir k) kids) (plant (q :: path) name ks) = None).
    { intros ks. destruct (plant (q :: path) name ks); cbn; split; congruence. }
    destruct (get seg kids) as [[n0|ks]|] eqn:G.
    + split; [|reflexivity]. intros _. exists [seg], (q :: path), n0. split; [discriminate|]. split; [reflexivity|exact G].
    + rewrite <- X, IH. split.
      * intros (p & r & n & NR & E & L). exists (seg :: p), r, n. split; [auto|]. split; [now rewrite E|].
        destruct p as [|s p]; [destruct L|]. rewrite leaf_at_more. eauto.
      * intros (p & r & n & NR & E & L). destruct p as [|s p]; [destruct L|]. injection E as -> E.
        destruct p as [|s' p].
        -- apply leaf_at_one in L. congruence.
        -- apply leaf_at_more in L. destruct L as (ks' & G' & L). exists (s' :: p), r, n. split; [auto|]. split; [auto|]. congruence.
    + rewrite <- X, IH. split.
      * intros (p & r & n & _ & _ & L). now apply no_leaf in L.
      * intros (p & r & n & NR & E & L). destruct p as [|s p]; [destruct L|]. injection E as -> E.
        destruct p as [|s' p].
        -- apply leaf_at_one in L. congruence.
        -- apply leaf_at_more in L. destruct L as (ks' & G' & L). congruence.
Qed.

Lemma plant_some path name : forall kids kids', wfs kids -> plant path name kids = Some kids' ->
  wfs kids' /\ kids' <> [] /\
  forall p n, leaf_at p kids' n <-> (p = path /\ n = name) \/ (leaf_at p kids n /\ ~ exists r, p = path ++ r).
Proof.
  induction path as [|seg path IH]; intros kids kids' W E; [discriminate|].
  destruct path as [|q path].
  - injection E as <-. split; [apply wfs_put; cbn; auto|]. split; [apply put_nonempty|]. intros p n.
    destruct p as [|s [|s' p]].
    + cbn. split; [tauto|]. intros [[X _]|[X _]]; [discriminate|tauto].
    + rewrite !leaf_at_one. rewrite get_put. destruct (dec s seg) as [->|NS]; split.
      * intros X. injection X as <-. left. auto.
      * intros [[_ ->]|[_ X]]; [reflexivity|]. contradiction X. exists []. reflexivity.
      * intros X. right. split; auto. intros [r X']. injection X' as X' _. congruence.
      * intros [[X _]|[X _]]; [|exact X]. injection X as X. congruence.
    + rewrite !leaf_at_more. rewrite get_put. destruct (dec s seg) as [->|NS]; split.
      * intros (ks & X & _). discriminate.
      * intros [[X _]|[_ X]]; [discriminate|]. contradiction X. exists (s' :: p). reflexivity.
      * intros X. right. split; auto. intros [r X']. injection X' as X' _. congruence.
      * intros [[X _]|[X _]]; [discriminate|exact X].
  - rewrite plant_cons in E.
    assert (X : exists ks ks', plant (q :: path) name ks = Some ks' /\ kids' = put seg (Dir ks') kids /\ wfs ks /\
                  (forall p n, p <> [] -> leaf_at (seg :: p) kids n <-> leaf_at p ks n) /\
                  (forall n, get seg kids <> Some (Leaf n))).
    { destruct (get seg kids) as [[n0|ks]|] eqn:G; [discriminate| |].
      - destruct (plant (q :: path) name ks) as [ks'|] eqn:P; [|discriminate]. injection E as <-.
        pose proof (proj1 (wf_Dir ks) (wfs_get _ _ _ W G)) as [_ Wk].
        exists ks, ks'. split; [auto|]. split; [auto|]. split; [auto|]. repeat split; auto.
        + destruct p as [|s p]; [congruence|]. rewrite leaf_at_more. intros (k & G' & L). congruence.
        + destruct p as [|s p]; [congruence|]. rewrite leaf_at_more. eauto.
        + discriminate.
      - destruct (plant (q :: path) name []) as [ks'|] eqn:P; [|discriminate]. injection E as <-.
        exists [], ks'. split; [auto|]. split; [auto|]. split; [apply wfs_nil|]. repeat split; auto.
        + destruct p as [|s p]; [congruence|]. rewrite leaf_at_more. intros (k & G' & L). congruence.
        + intros L. now apply no_leaf in L.
        + discriminate. }
    destruct X as (ks & ks' & P & -> & Wk & SL & NL).
    destruct (IH _ _ Wk P) as (W' & NE' & L').
    split; [apply wfs_put; auto; apply wf_Dir; auto|]. split; [apply put_nonempty|]. intros p n.
    destruct p as [|s p].
    + cbn [leaf_at]. split; [tauto|]. intros [[X _]|[X _]]; [discriminate|tauto].
    + destruct (dec s seg) as [->|NS].
      * destruct p as [|s' p].
        -- rewrite !leaf_at_one, get_put_eq. split; [discriminate|].
           intros [[X _]|[X _]]; [discriminate|]. now apply NL in X.
        -- rewrite leaf_at_more, get_put_eq. rewrite (SL (s' :: p) n) by discriminate. split.
           ++ intros (k & X & L). injection X as <-. apply L' in L. destruct L as [[-> ->]|[L N]]; [left; auto|].
              right. split; [exact L|]. intros [r X]. apply N. exists r. cbn in X. injection X as -> ->. reflexivity.
           ++ intros [[X ->]|[L N]]; exists ks'; (split; [reflexivity|]); apply L'.
              ** left. injection X as -> ->. auto.
              ** right. split; [exact L|]. intros [r X]. apply N. exists r. rewrite X. reflexivity.
      * assert (O : leaf_at (s :: p) (put seg (Dir ks') kids) n <-> leaf_at (s :: p) kids n).
        { destruct p as [|s' p]; rewrite ?leaf_at_one, ?leaf_at_more; rewrite get_put_neq by assumption; reflexivity. }
        rewrite O. split.
        -- intros L. right. split; auto. intros [r X]. injection X as X _. congruence.
        -- intros [[X _]|[L _]]; [|exact L]. injection X as X _. congruence.
Qed.

Lemma plant_labels (Q : text -> Prop) path name : Forall Q path -> forall kids kids', labelss Q kids ->
  plant path name kids = Some kids' -> labelss Q kids'.
Proof.
  induction 1 as [|seg path QS QP IH]; intros kids kids' L E; [discriminate|].
  destruct path as [|q path].
  - injection E as <-. apply Forall_put; cbn; auto.
  - rewrite plant_cons in E. destruct (get seg kids) as [[n0|ks]|] eqn:G; [discriminate| |].
    + destruct (plant (q :: path) name ks) as [ks'|] eqn:P; [|discriminate]. injection E as <-.
      apply Forall_put; auto. split; auto. apply labels_Dir. eapply IH; [|exact P].
      apply get_In in G. unfold labelss in L. rewrite Forall_forall in L. destruct (L _ G) as [_ X]. now apply labels_Dir in X.
    + destruct (plant (q :: path) name []) as [ks'|] eqn:P; [|discriminate]. injection E as <-.
      apply Forall_put; auto. split; auto. apply labels_Dir. eapply IH; [|exact P]. constructor.
Qed.

Lemma plant_names (R : string -> Prop) path name : R name -> forall kids kids', namess R kids ->
  plant path name kids = Some kids' -> namess R kids'.
Proof.
  intros RN. induction path as [|seg path IH]; intros kids kids' L E; [discriminate|].
  destruct path as [|q path].
  - injection E as <-. apply Forall_put; cbn; auto.
  - rewrite plant_cons in E. destruct (get seg kids) as [[n0|ks]|] eqn:G; [discriminate| |].
    + destruct (plant (q :: path) name ks) as [ks'|] eqn:P; [|discriminate]. injection E as <-.
      apply Forall_put; auto. cbn [snd]. apply names_Dir. eapply IH; [|exact P].
      apply get_In in G. unfold namess in L. rewrite Forall_forall in L. specialize (L _ G). now apply names_Dir in L.
    + destruct (plant (q :: path) name []) as [ks'|] eqn:P; [|discriminate]. injection E as <-.
      apply Forall_put; auto. cbn [snd]. apply names_Dir. eapply IH; [|exact P]. constructor.
Qed.

(** The leaves in order, as the drawing lists them. *)
Fixpoint tleaves (pre : list text) (seg : text) (t : tree) : list (list text * string) :=
  match t with
  | Leaf n => [(pre ++ [seg], n)]
  | Dir kids => flat_map (fun k => tleaves (pre ++ [seg]) (fst k) (snd k)) kids
  end.

Definition leaves (kids : list (text * tree)) : list (list text * string) :=
  flat_map (fun k => tleaves [] (fst k) (snd k)) kids.

Lemma tnodes_leaves idr : forall t pre seg,
  tnodes idr pre seg t = map (fun l => (idr (snd l), fst l)) (tleaves pre seg t).
Proof.
  induction t as [n|kids IH] using tree_induction; intros pre seg; [reflexivity|].
  cbn [tnodes tleaves]. rewrite !flat_map_concat_map, concat_map, map_map. f_equal. apply map_ext_in.
  intros k I. rewrite Forall_forall in IH. now apply IH.
Qed.

Lemma nodes_leaves idr kids :
  flat_map (fun k => tnodes idr [] (fst k) (snd k)) kids = map (fun l => (idr (snd l), fst l)) (leaves kids).
Proof.
  unfold leaves. rewrite !flat_map_concat_map, concat_map, map_map. f_equal. apply map_ext. intros k. apply tnodes_leaves.
Qed.

(** What a subtree says about a path below it. *)
Definition leaf_in (seg : text) (t : tree) (path : list text) (n : string) : Prop := leaf_at path [(seg, t)] n.

Lemma leaf_at_kids path kids n : NoDup (map fst kids) ->
  leaf_at path kids n <-> exists k, In k kids /\ leaf_in (fst k) (snd k) path n.
Proof.
  intros ND. unfold leaf_in. destruct path as [|s path].
  - cbn. split; [tauto|]. intros (k & _ & []).
  - assert (G : forall v, get s kids = Some v <-> exists k, In k kids /\ get s [(fst k, snd k)] = Some v).
    { intros v. split.
      - intros E. exists (s, v). split; [now apply get_In|]. cbn. destruct (dec s s); congruence.
      - intros ([s' v'] & I & E). cbn in E. destruct (dec s s') as [->|]; [|discriminate]. injection E as ->.
        now apply In_get. }
    destruct path as [|s' path].
    + rewrite leaf_at_one, G. reflexivity.
    + rewrite leaf_at_more. split.
      * intros (ks & E & L). apply G in E. destruct E as (k & I & E). exists k. split; auto. apply leaf_at_more. eauto.
      * intros (k & I & L). apply leaf_at_more in L. destruct L as (ks & E & L). exists ks. split; auto. apply G. eauto.
Qed.

Lemma tleaves_spec : forall t pre seg p n, wf t ->
  In (p, n) (tleaves pre seg t) <-> exists q, p = pre ++ q /\ leaf_in seg t q n.
Proof.
  induction t as [m|kids IH] using tree_induction; intros pre seg p n W.
  - cbn [tleaves In]. unfold leaf_in. split.
    + intros [E|[]]. injection E as <- <-. exists [seg]. split; auto. rewrite leaf_at_one. cbn. destruct (dec seg seg); congruence.
    + intros (q & -> & L). destruct q as [|s [|s' q]].
      * destruct L.
      * apply leaf_at_one in L. cbn in L. destruct (dec s seg); [|discriminate]. subst. injection L as ->. now left.
      * apply leaf_at_more in L. destruct L as (ks & L & _). cbn in L. destruct (dec s seg); discriminate.
  - apply wf_Dir in W. destruct W as [NE [ND W]]. cbn [tleaves]. rewrite in_flat_map. split.
    + intros (k & I & L). rewrite Forall_forall in IH, W. apply IH in L; auto. destruct L as (q & -> & L).
      exists (seg :: q). split; [now rewrite <- app_assoc|]. unfold leaf_in.
      destruct q as [|s q]; [destruct L|]. apply leaf_at_more. exists kids. split.
      * cbn. destruct (dec seg seg); congruence.
      * apply leaf_at_kids; auto. exists k. auto.
    + intros (q & -> & L). unfold leaf_in in L. destruct q as [|s [|s' q]].
      * destruct L.
      * apply leaf_at_one in L. cbn in L. destruct (dec s seg); discriminate.
      * apply leaf_at_more in L. destruct L as (ks & G & L). cbn in G. destruct (dec s seg) as [->|]; [|discriminate].
        injection G as <-. apply leaf_at_kids in L; auto. destruct L as (k & I & L). exists k. split; auto.
        rewrite Forall_forall in IH, W. apply IH; auto. exists (s' :: q). split; [now rewrite <- app_assoc|exact L].
Qed.

Lemma leaves_spec kids p n : wfs kids -> In (p, n) (leaves kids) <-> leaf_at p kids n.
Proof.
  intros [ND W]. unfold leaves. rewrite in_flat_map. rewrite leaf_at_kids by assumption. rewrite Forall_forall in W. split.
  - intros (k & I & L). apply tleaves_spec in L; auto. destruct L as (q & -> & L). eauto.
  - intros (k & I & L). exists k. split; auto. apply tleaves_spec; auto. exists p. auto.
Qed.

Lemma leaf_in_head seg t s q n : leaf_in seg t (s :: q) n -> s = seg.
Proof.
  unfold leaf_in. destruct q as [|s' q].
  - rewrite leaf_at_one. cbn. destruct (dec s seg); [auto|discriminate].
  - rewrite leaf_at_more. intros (ks & G & _). cbn in G. destruct (dec s seg); [auto|discriminate].
Qed.

Lemma NoDup_flat {A B} (f : A -> list B) l :
  NoDup l -> (forall x, In x l -> NoDup (f x)) ->
  (forall x y b, In x l -> In y l -> In b (f x) -> In b (f y) -> x = y) -> NoDup (flat_map f l).
Proof.
  induction 1 as [|x l NI ND IH]; intros F D; cbn; [constructor|].
  assert (Z : forall (a b : list B), NoDup a -> NoDup b -> (forall z, In z a -> ~ In z b) -> NoDup (a ++ b)).
  { induction a as [|z a IHa]; intros b Na Nb Dj; cbn; auto. inversion Na; subst. constructor.
    - rewrite in_app_iff. intros [I|I]; [auto|]. eapply Dj; [left; reflexivity|exact I].
    - apply IHa; auto. intros w Iw. apply Dj. right. exact Iw. }
  apply Z.
  - apply F. now left.
  - apply IH; [intros; apply F; now right|]. intros y z b Iy Iz. apply D; now right.
  - intros b I J. apply in_flat_map in J. destruct J as (y & Iy & Jy). apply NI.
    rewrite (D x y b); auto; [now left|now right].
Qed.

Lemma NoDup_pairs (kids : list (text * tree)) : NoDup (map fst kids) -> NoDup kids.
Proof. apply NoDup_map_inv. Qed.

Lemma fst_inj (kids : list (text * tree)) x y : NoDup (map fst kids) -> In x kids -> In y kids -> fst x = fst y -> x = y.
Proof.
  intros ND Ix Iy E. destruct x as [a u], y as [b v]. cbn in E. subst b.
  pose proof (In_get (K := text) a u kids ND Ix). pose proof (In_get (K := text) a v kids ND Iy). congruence.
Qed.

Lemma tleaves_NoDup : forall t pre seg, wf t -> NoDup (tleaves pre seg t).
Proof.
  induction t as [m|kids IH] using tree_induction; intros pre seg W.
  - repeat constructor. intros [].
  - apply wf_Dir in W. destruct W as [NE [ND W]]. rewrite Forall_forall in IH, W. cbn [tleaves].
    apply NoDup_flat; [now apply NoDup_pairs|auto|].
    intros x y [p n] Ix Iy Hx Hy. apply tleaves_spec in Hx; auto. apply tleaves_spec in Hy; auto.
    destruct Hx as (q & -> & Hx), Hy as (q' & E & Hy). apply app_inv_head in E. subst q'.
    destruct q as [|s q]; [destruct Hx|]. apply leaf_in_head in Hx. apply leaf_in_head in Hy.
    apply (fst_inj kids); congruence.
Qed.

Lemma leaves_NoDup kids : wfs kids -> NoDup (leaves kids).
Proof.
  intros [ND W]. rewrite Forall_forall in W. unfold leaves.
  apply NoDup_flat; [now apply NoDup_pairs|intros; apply tleaves_NoDup; auto|].
  intros x y [p n] Ix Iy Hx Hy. apply tleaves_spec in Hx; auto. apply tleaves_spec in Hy; auto.
  destruct Hx as (q & -> & Hx), Hy as (q' & E & Hy). cbn in E. subst q'.
  destruct q as [|s q]; [destruct Hx|]. apply leaf_in_head in Hx. apply leaf_in_head in Hy.
  apply (fst_inj kids); congruence.
Qed.

(** ** The names of the nodes *)

Fixpoint idx (n : string) (l : list string) : nat :=
  match l with
  | [] => 0
  | x :: l => if dec n x then 0 else S (idx n l)
  end.

Lemma idx_inj l : forall a b, In a l -> In b l -> idx a l = idx b l -> a = b.
Proof.
  induction l as [|x l IH]; intros a b A B E; [destruct A|]. cbn in E.
  destruct (dec a x), (dec b x); try congruence. destruct A as [A|A]; [congruence|]. destruct B as [B|B]; [congruence|].
  apply IH; auto.
Qed.

Definition wrap (fmt : format) (u : text) : text :=
  match fmt with Mermaid => u | Graphviz => T """" ++ u ++ T """" end.

Lemma node_map_get fmt uuid : forall names i m n, NoDup names -> (forall x, In x names -> get x m = None) ->
  get n (node_map fmt uuid i names m) =
  (if in_dec string_dec n names then Some (wrap fmt (uuid (i + idx n names))) else get n m).
Proof.
  induction names as [|x names IH]; intros i m n ND F; [reflexivity|].
  inversion ND; subst. cbn [node_map]. rewrite (F x (or_introl eq_refl)).
  change (match fmt with Mermaid => uuid i | Graphviz => T """" ++ uuid i ++ T """" end) with (wrap fmt (uuid i)).
  rewrite IH; auto.
  - cbn [idx]. destruct (in_dec string_dec n names) as [I|I], (in_dec string_dec n (x :: names)) as [J|J].
    + destruct (dec n x) as [->|]; [contradiction|]. now rewrite <- plus_n_Sm.
    + contradiction J. now right.
    + destruct J as [->|J]; [|contradiction]. destruct (dec n n); [|congruence]. rewrite get_put_eq, Nat.add_0_r. reflexivity.
    + rewrite get_put_neq; auto. intros ->. apply J. now left.
  - intros y I. rewrite get_put_neq; [apply F; now right|]. intros ->. contradiction.
Qed.

(** ** The loop over the graph *)

Definition link_line (fmt : format) (a b : text) : text :=
  match fmt with
  | Mermaid => a ++ T " --> " ++ b
  | Graphviz => a ++ T " -> " ++ b ++ T ";"
  end.

Lemma connection_spec fmt m a b :
  connection fmt m a b =
  match get a m, get b m with Some x, Some y => Some (link_line fmt x y ++ [newline]) | _, _ => None end.
Proof.
  unfold connection, link_line. destruct (get a m), (get b m), fmt; auto; rewrite <- !app_assoc; reflexivity.
Qed.

Lemma connect_all_spec fmt m a x conns : get a m = Some x -> forall acc,
  match connect_all fmt m a conns acc with
  | Some acc' => (forall c, In c conns -> get c m <> None) /\
                 acc' = acc ++ unlines (map (fun c => link_line fmt x (getd c [] m)) conns)
  | None => exists c, In c conns /\ get c m = None
  end.
Proof.
  intros A. induction conns as [|c conns IH]; intros acc.
  - cbn. split; [tauto|]. now rewrite app_nil_r.
  - cbn [connect_all]. rewrite connection_spec, A. destruct (get c m) as [y|] eqn:C.
    + specialize (IH (acc ++ link_line fmt x y ++ [newline])).
      destruct (connect_all fmt m a conns _) as [acc'|].
      * destruct IH as [D ->]. split.
        -- intros z [<-|I]; [congruence|auto].
        -- cbn [map]. unfold unlines. cbn [flat_map]. unfold getd at 2. rewrite C. now rewrite <- !app_assoc.
      * destruct IH as (z & I & Z). exists z. split; [now right|auto].
    + exists c. split; [now left|auto].
Qed.

Lemma insert_perm x l : Permutation (insert x l) (x :: l).
Proof.
  induction l as [|y l IH]; cbn; auto. destruct (String.leb x y); auto.
  rewrite IH. apply perm_swap.
Qed.

Lemma sorted_perm l : Permutation (sorted l) l.
Proof. unfold sorted. induction l as [|x l IH]; cbn; auto. rewrite insert_perm. now constructor. Qed.

Lemma sorted_In x l : In x (sorted l) <-> In x l.
Proof. split; apply Permutation_in; [|apply Permutation_sym]; apply sorted_perm. Qed.

(** A key some later key is around. *)
Definition covered (l : list string) (n : string) : Prop :=
  exists l1 l2 m, l = l1 ++ n :: l2 /\ In m l2 /\ inside n m.

Definition Inv (l : list string) (kids : list (text * tree)) : Prop :=
  wfs kids /\ forall p n, leaf_at p kids n <-> In n l /\ p = split (T n) /\ ~ covered l n.

Lemma Inv_nil : Inv [] [].
Proof. split; [apply wfs_nil|]. intros p n. split; [intros L; now apply no_leaf in L|]. intros [[] _]. Qed.

Lemma covered_cons x l n : NoDup (x :: l) -> covered (x :: l) n ->
  (n = x /\ exists m, In m l /\ inside x m) \/ covered l n.
Proof.
  intros ND (l1 & l2 & m & E & I & S). destruct l1 as [|y l1]; injection E as -> E.
  - left. subst l2. eauto.
  - right. exists l1, l2, m. auto.
Qed.

Lemma last_around l n : NoDup l -> (exists m, In m l /\ inside n m) ->
  exists m, In m l /\ inside n m /\ ~ covered l m.
Proof.
  induction l as [|x l IH]; intros ND (m & I & S); [destruct I|]. pose proof ND as ND'. inversion ND'; subst.
  destruct (Exists_dec (inside n) l (inside_dec n)) as [X|X]; rewrite Exists_exists in X.
  - destruct (IH H2 X) as (y & Iy & Sy & Cy). exists y. split; [now right|]. split; [exact Sy|].
    intros C. apply covered_cons in C; auto. destruct C as [[-> _]|C]; [contradiction|auto].
  - destruct I as [->|I]; [|contradiction X; eauto]. exists m. split; [now left|]. split; [exact S|].
    intros C. apply covered_cons in C; auto. destruct C as [[_ (y & Iy & Sy)]|C].
    + apply X. exists y. split; auto. eapply inside_trans; eauto.
    + destruct C as (l1 & l2 & y & E & _). apply H1. rewrite E. apply in_app_iff. right. now left.
Qed.

Lemma covered_snoc l x n : NoDup (l ++ [x]) -> n <> x -> In n l ->
  covered (l ++ [x]) n <-> covered l n \/ inside n x.
Proof.
  intros ND NX I. split.
  - intros (l1 & l2 & m & E & Im & S).
    destruct l2 as [|z l2 _] using rev_ind; [destruct Im|].
    rewrite app_comm_cons, app_assoc in E. apply app_inj_tail in E. destruct E as [-> <-].
    apply in_app_iff in Im. destruct Im as [Im|[->|[]]]; [|auto]. left. exists l1, l2, m. auto.
  - intros [(l1 & l2 & m & -> & Im & S)|S].
    + exists l1, (l2 ++ [x]), m. rewrite <- app_assoc. split; [reflexivity|]. split; [apply in_app_iff; auto|auto].
    + apply in_split in I. destruct I as (l1 & l2 & ->). exists l1, (l2 ++ [x]), x. rewrite <- app_assoc.
      split; [reflexivity|]. split; [apply in_app_iff; right; now left|auto].
Qed.

Lemma covered_last l x : NoDup (l ++ [x]) -> ~ covered (l ++ [x]) x.
Proof.
  intros ND (l1 & l2 & m & E & Im & S).
  destruct l2 as [|z l2 _] using rev_ind; [destruct Im|].
  rewrite app_comm_cons, app_assoc in E. apply app_inj_tail in E. destruct E as [-> ->].
  rewrite <- app_assoc in ND. apply NoDup_remove in ND. destruct ND as [_ ND]. apply ND.
  apply in_app_iff. right. apply in_app_iff. right. now left.
Qed.

Lemma Inv_blocked l kids x : NoDup l -> Inv l kids ->
  plant (split (T x)) x kids = None <-> exists m, In m l /\ inside x m.
Proof.
  intros ND [W L]. rewrite plant_none by apply split_nonempty. split.
  - intros (p & r & n & NR & E & Lf). apply L in Lf. destruct Lf as (I & -> & _). exists n. split; [exact I|].
    apply inside_split. eauto.
  - intros X. apply last_around in X; auto. destruct X as (m & I & S & C). apply inside_split in S.
    destruct S as (r & NR & E). exists (split (T m)), r, m. split; [auto|]. split; [auto|]. apply L. auto.
Qed.

Lemma Inv_plant l kids x kids' : NoDup (l ++ [x]) -> Inv l kids ->
  plant (split (T x)) x kids = Some kids' -> Inv (l ++ [x]) kids' /\ kids' <> [].
Proof.
  intros ND [W L] E. destruct (plant_some _ _ _ _ W E) as (W' & NE & L'). split; [|exact NE]. split; [exact W'|].
  intros p n. rewrite L', L. split.
  - intros [[-> ->]|[(I & -> & C) N]].
    + split; [apply in_app_iff; right; now left|]. split; [reflexivity|]. now apply covered_last.
    + assert (NX : n <> x) by (intros ->; apply N; exists []; now rewrite app_nil_r).
      split; [apply in_app_iff; auto|]. split; [reflexivity|]. rewrite covered_snoc by auto.
      intros [X|X]; [auto|]. apply inside_split in X. destruct X as (r & _ & X). apply N. eauto.
  - intros (I & -> & C). apply in_app_iff in I. destruct I as [I|[<-|[]]]; [|now left].
    right. assert (NX : n <> x).
    { intros ->. apply NoDup_remove_2 in ND. rewrite app_nil_r in ND. contradiction. }
    rewrite covered_snoc in C by auto. split; [tauto|]. intros [r X]. destruct r as [|s r].
    + rewrite app_nil_r in X. apply split_inj, T_inj in X. contradiction.
    + apply C. right. apply inside_split. exists (s :: r). split; [discriminate|exact X].
Qed.

Lemma construct_spec fmt m : forall g l kids acc,
  NoDup (l ++ keys g) -> Inv l kids -> (forall n, In n (keys g) -> get n m <> None) ->
  match construct fmt m g kids acc with
  | Some (kids', acc') =>
      Inv (l ++ keys g) kids' /\
      acc' = acc ++ unlines (flat_map (fun e => map (fun c => link_line fmt (getd (fst e) [] m) (getd c [] m)) (sorted (snd e))) g) /\
      (forall n ts c, In (n, ts) g -> In c ts -> get c m <> None) /\
      (forall g1 n ts g2 x, g = g1 ++ (n, ts) :: g2 -> In x (l ++ keys g1) -> ~ inside n x)
  | None =>
      (exists n ts c, In (n, ts) g /\ In c ts /\ get c m = None) \/
      (exists g1 n ts g2 x, g = g1 ++ (n, ts) :: g2 /\ In x (l ++ keys g1) /\ inside n x)
  end.
Proof.
  induction g as [|[n ts] g IH]; intros l kids acc ND V K.
  - cbn [construct keys map flat_map]. change (unlines []) with (@nil ascii). rewrite !app_nil_r.
    split; [exact V|]. split; [reflexivity|]. split; [intros n ts c []|].
    intros g1 n ts g2 x E. destruct g1; discriminate.
  - cbn [construct]. change (keys ((n, ts) :: g)) with (n :: keys g) in *.
    assert (ND1 : NoDup (l ++ [n])).
    { change (n :: keys g) with ([n] ++ keys g) in ND. rewrite app_assoc in ND.
      clear -ND. revert ND. generalize (l ++ [n]) (keys g). intros a b. induction a as [|x a IHa]; cbn; intros H; [constructor|].
      inversion H; subst. constructor; auto. intros I. apply H2. apply in_app_iff. auto. }
    assert (ND2 : NoDup l).
    { clear -ND1. induction l as [|x l IHl]; cbn in *; [constructor|]. inversion ND1; subst. constructor; auto.
      intros I. apply H1. apply in_app_iff. auto. }
    destruct (plant (split (T n)) n kids) as [kids1|] eqn:P.
    + destruct (Inv_plant _ _ _ _ ND1 V P) as [V1 _].
      assert (NB : ~ exists x, In x l /\ inside n x).
      { intros X. apply (Inv_blocked l kids n ND2 V) in X. congruence. }
      destruct (get n m) as [x|] eqn:G; [|exfalso; apply (K n); [now left|exact G]].
      pose proof (connect_all_spec fmt m n x (sorted ts) G acc) as C.
      destruct (connect_all fmt m n (sorted ts) acc) as [acc1|].
      * destruct C as [C ->].
        specialize (IH (l ++ [n]) kids1 (acc ++ unlines (map (fun c => link_line fmt x (getd c [] m)) (sorted ts)))).
        rewrite <- app_assoc in IH. cbn [app] in IH. specialize (IH ND V1 (fun y I => K y (or_intror I))).
        destruct (construct fmt m g kids1 _) as [[kids' acc']|].
        -- destruct IH as (V' & -> & C' & B'). split; [exact V'|]. split; [|split].
           ++ cbn [flat_map fst snd]. rewrite unlines_app, <- app_assoc. assert (GX : getd n [] m = x) by (unfold getd; now rewrite G).
              rewrite GX. reflexivity.
           ++ intros n' ts' c [E|I] J; [injection E as <- <-; apply C; now apply sorted_In|]. eapply C'; eauto.
           ++ intros g1 n' ts' g2 y E I S. destruct g1 as [|[n1 ts1] g1]; cbn [app] in E.
              ** injection E as <- <- <-. cbn in I. rewrite app_nil_r in I. apply NB. eauto.
              ** injection E as <- <- E. eapply B'; [exact E| |exact S]. rewrite <- app_assoc. exact I.
        -- destruct IH as [(n' & ts' & c & I & J & Z)|(g1 & n' & ts' & g2 & y & -> & I & S)].
           ++ left. exists n', ts', c. split; [now right|auto].
           ++ right. exists ((n, ts) :: g1), n', ts', g2, y. split; [reflexivity|]. split; [|exact S].
              rewrite <- app_assoc in I. exact I.
      * destruct C as (c & I & Z). left. exists n, ts, c. split; [now left|]. split; [now apply sorted_In|exact Z].
    + apply (Inv_blocked l kids n ND2 V) in P. destruct P as (x & I & S). right.
      exists [], n, ts, g, x. split; [reflexivity|]. split; [cbn; now rewrite app_nil_r|exact S].
Qed.

Lemma construct_labels fmt m (Q : text -> Prop) (R : string -> Prop) : forall g kids acc kids' acc',
  construct fmt m g kids acc = Some (kids', acc') ->
  (forall n p, In n (keys g) -> In p (split (T n)) -> Q p) -> (forall n, In n (keys g) -> R n) ->
  labelss Q kids -> namess R kids -> (g <> [] \/ kids <> []) -> wfs kids ->
  labelss Q kids' /\ namess R kids' /\ kids' <> [].
Proof.
  induction g as [|[n ts] g IH]; intros kids acc kids' acc' E HQ HR L N NE W.
  - injection E as <- <-. repeat split; auto. destruct NE; [congruence|auto].
  - cbn [construct] in E. destruct (plant (split (T n)) n kids) as [kids1|] eqn:P; [|discriminate].
    destruct (connect_all fmt m n (sorted ts) acc) as [acc1|]; [|discriminate].
    destruct (plant_some _ _ _ _ W P) as (W1 & NE1 & _).
    eapply IH; [exact E| | | | |auto|auto].
    + intros n' p I. apply HQ. now right.
    + intros n' I. apply HR. now right.
    + eapply plant_labels; [|exact L|exact P]. apply Forall_forall. intros p I. apply (HQ n); [now left|exact I].
    + eapply plant_names; [|exact N|exact P]. apply HR. now left.
Qed.

(** ** Boxes *)

Lemma some_leaf : forall t seg, wf t -> exists q n, leaf_in seg t q n.
Proof.
  induction t as [m|kids IH] using tree_induction; intros seg W.
  - exists [seg], m. unfold leaf_in. rewrite leaf_at_one. cbn. destruct (dec seg seg); congruence.
  - apply wf_Dir in W. destruct W as [NE [ND W]]. destruct kids as [|k kids]; [congruence|].
    inversion IH; subst. inversion W; subst. destruct (H1 (fst k) H3) as (q & n & L).
    exists (seg :: q), n. unfold leaf_in. destruct q as [|s q]; [destruct L|]. apply leaf_at_more. exists (k :: kids). split.
    + cbn. destruct (dec seg seg); congruence.
    + apply leaf_at_kids; auto. exists k. split; [now left|exact L].
Qed.

Lemma leaf_in_Dir seg kids q n : NoDup (map fst kids) ->
  leaf_in seg (Dir kids) q n <-> exists q', q = seg :: q' /\ exists k, In k kids /\ leaf_in (fst k) (snd k) q' n.
Proof.
  intros ND. unfold leaf_in. split.
  - intros L. destruct q as [|s [|s' q]].
    + destruct L.
    + apply leaf_at_one in L. cbn in L. destruct (dec s seg); discriminate.
    + apply leaf_at_more in L. destruct L as (ks & G & L). cbn in G. destruct (dec s seg) as [->|]; [|discriminate].
      injection G as <-. exists (s' :: q). split; [reflexivity|]. now apply leaf_at_kids in L.
  - intros (q' & -> & k & I & L). destruct q' as [|s' q']; [destruct L|]. apply leaf_at_more. exists kids. split.
    + cbn. destruct (dec seg seg); congruence.
    + apply leaf_at_kids; auto. exists k. split; [exact I|exact L].
Qed.

Lemma last_cons {A} (x : A) l d : l <> [] -> last (x :: l) d = last l d.
Proof. destruct l; [congruence|reflexivity]. Qed.

Lemma tboxes_spec : forall t pre seg p i, wf t ->
  In (p, i) (tboxes pre seg t) <->
  exists q r n, p = pre ++ q /\ q <> [] /\ r <> [] /\ i = lower (last q []) /\ leaf_in seg t (q ++ r) n.
Proof.
  induction t as [m|kids IH] using tree_induction; intros pre seg p i W.
  - cbn. split; [tauto|]. intros (q & r & n & _ & NQ & NR & _ & L). unfold leaf_in in L.
    destruct q as [|s q]; [congruence|]. destruct q as [|s' q].
    + destruct r as [|x r]; [congruence|]. cbn [app] in L. apply leaf_at_more in L. destruct L as (ks & G & _).
      cbn in G. destruct (dec s seg); discriminate.
    + cbn [app] in L. apply leaf_at_more in L. destruct L as (ks & G & _). cbn in G. destruct (dec s seg); discriminate.
  - pose proof W as W0. apply wf_Dir in W. destruct W as [NE [ND W]]. rewrite Forall_forall in IH, W.
    cbn [tboxes]. rewrite in_app_iff, in_flat_map. split.
    + intros [(k & I & B)|[E|[]]].
      * apply IH in B; auto. destruct B as (q & r & n & -> & NQ & NR & -> & L).
        exists (seg :: q), r, n. split; [now rewrite <- app_assoc|]. split; [discriminate|]. split; [exact NR|].
        split; [now rewrite last_cons|]. cbn [app]. apply leaf_in_Dir; auto. exists (q ++ r). split; eauto.
      * injection E as <- <-. destruct (some_leaf _ seg W0) as (q & n & L). apply leaf_in_Dir in L; auto.
        destruct L as (q' & -> & k & I & L). exists [seg], q', n. split; [reflexivity|]. split; [discriminate|].
        split; [intros ->; destruct L|]. split; [reflexivity|]. apply leaf_in_Dir; auto. exists q'. split; eauto.
    + intros (q & r & n & -> & NQ & NR & -> & L). apply leaf_in_Dir in L; auto. destruct L as (q' & E & k & I & L).
      destruct q as [|s q]; [congruence|]. injection E as -> E. subst q'. destruct q as [|s' q].
      * right. now left.
      * left. exists k. split; [exact I|]. apply IH; auto. exists (s' :: q), r, n.
        split; [now rewrite <- app_assoc|]. split; [discriminate|]. split; [auto|]. split; [reflexivity|exact L].
Qed.

Definition boxes (kids : list (text * tree)) : list (list text * text) :=
  flat_map (fun k => tboxes [] (fst k) (snd k)) kids.

Lemma boxes_spec kids p i : wfs kids ->
  In (p, i) (boxes kids) <-> p <> [] /\ i = lower (last p []) /\ exists r n, r <> [] /\ leaf_at (p ++ r) kids n.
Proof.
  intros [ND W]. rewrite Forall_forall in W. unfold boxes. rewrite in_flat_map. split.
  - intros (k & I & B). apply tboxes_spec in B; auto. destruct B as (q & r & n & -> & NQ & NR & -> & L).
    split; [exact NQ|]. split; [reflexivity|]. exists r, n. split; [exact NR|]. apply leaf_at_kids; eauto.
  - intros (NP & -> & r & n & NR & L). apply leaf_at_kids in L; auto. destruct L as (k & I & L). exists k. split; [exact I|].
    apply tboxes_spec; auto. exists p, r, n. auto.
Qed.

Lemma leaf_in_prefix_head seg t q n : leaf_in seg t q n -> exists q', q = seg :: q'.
Proof. intros L. destruct q as [|s q]; [destruct L|]. apply leaf_in_head in L. subst. eauto. Qed.

Lemma tboxes_NoDup : forall t pre seg, wf t -> NoDup (tboxes pre seg t).
Proof.
  induction t as [m|kids IH] using tree_induction; intros pre seg W; [constructor|].
  apply wf_Dir in W. destruct W as [NE [ND W]]. rewrite Forall_forall in IH, W. cbn [tboxes].
  apply NoDup_app_one.
  - apply NoDup_flat; [now apply NoDup_pairs|auto|].
    intros x y [p i] Ix Iy Hx Hy. apply tboxes_spec in Hx; auto. apply tboxes_spec in Hy; auto.
    destruct Hx as (q & r & n & -> & NQ & NR & _ & Hx), Hy as (q' & r' & n' & E & NQ' & NR' & _ & Hy).
    apply app_inv_head in E. subst q'. apply leaf_in_prefix_head in Hx. apply leaf_in_prefix_head in Hy.
    destruct Hx as [z Hx], Hy as [z' Hy]. destruct q as [|s q]; [congruence|]. injection Hx as Hx _. injection Hy as Hy _.
    apply (fst_inj kids); congruence.
  - intros I. apply in_flat_map in I. destruct I as (k & I & B). apply tboxes_spec in B; auto.
    destruct B as (q & r & n & E & NQ & _). rewrite <- (app_nil_r (pre ++ [seg])) in E at 1.
    apply app_inv_head in E. congruence.
Qed.

Lemma boxes_NoDup kids : wfs kids -> NoDup (map fst (boxes kids)).
Proof.
  intros W. assert (ND : NoDup (boxes kids)).
  { destruct W as [ND W]. rewrite Forall_forall in W. unfold boxes.
    apply NoDup_flat; [now apply NoDup_pairs|intros; apply tboxes_NoDup; auto|].
    intros x y [p i] Ix Iy Hx Hy. apply tboxes_spec in Hx; auto. apply tboxes_spec in Hy; auto.
    destruct Hx as (q & r & n & -> & NQ & NR & _ & Hx), Hy as (q' & r' & n' & E & NQ' & NR' & _ & Hy).
    cbn in E. subst q'. apply leaf_in_prefix_head in Hx. apply leaf_in_prefix_head in Hy.
    destruct Hx as [z Hx], Hy as [z' Hy]. destruct q as [|s q]; [congruence|]. injection Hx as Hx _. injection Hy as Hy _.
    apply (fst_inj kids); congruence. }
  assert (F : forall p i, In (p, i) (boxes kids) -> i = lower (last p [])) by (intros p i I; now apply boxes_spec in I).
  revert ND F. generalize (boxes kids). induction l as [|[p i] l IH]; cbn; intros ND F; [constructor|].
  inversion ND; subst. constructor.
  - intros I. apply in_map_iff in I. destruct I as ([p' i'] & E & I). cbn in E. subst p'. apply H1.
    rewrite (F p i (or_introl eq_refl)). rewrite <- (F p i' (or_intror I)). exact I.
  - apply IH; auto.
Qed.
