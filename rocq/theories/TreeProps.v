(* C43: every unit runs in exactly one process.  C44: addresses are unique, and crawling visits
   each component once. *)

From Coq Require Import List NArith Arith Bool Lia Permutation.
From Verif Require Import Dict CodecModel TreeModel TreeProofs RelayProofs.
Import ListNotations.

(** ** C44 *)

(** C44.  In a well-named system different components have different addresses, different streams
    have different addresses, and no component has the address of a stream. *)
Theorem C44_addresses_unique :
  forall loc cs, well_named loc cs ->
    (forall y z, holds loc cs y -> holds loc cs z -> address y = address z -> y = z) /\
    (forall y z s t, holds loc cs y -> holds loc cs z ->
       In s (streams_of (snd y)) -> In t (streams_of (snd z)) ->
       join (place y ++ [fst s]) = join (place z ++ [fst t]) -> y = z /\ s = t) /\
    (forall y z s, holds loc cs y -> holds loc cs z -> In s (streams_of (snd z)) ->
       address y <> join (place z ++ [fst s])).
Proof.
  intros loc cs W.
  assert (NP : forall y, place y <> []) by (intros y E; unfold place in E; apply app_eq_nil in E; destruct E; discriminate).
  assert (PS : forall y s, holds loc cs y -> In s (streams_of (snd y)) -> forall n, In n (place y ++ [fst s]) -> plain n).
  { intros y s H I n J. apply in_app_or in J. destruct J as [J|[<-|[]]]; [exact (holds_plain _ _ _ W H n J)|].
    destruct W as (_ & _ & Wy). apply (Wy y H). exact I. }
  split; [|split].
  - intros y z Hy Hz E. apply (holds_place_inj _ _ _ _ W Hy Hz). apply join_inj; auto; eapply holds_plain; eauto.
  - intros y z s t Hy Hz Is It E. apply join_inj in E; [|intros F; apply app_eq_nil in F; destruct F; discriminate..|apply PS; auto|apply PS; auto].
    apply app_inj_tail in E. destruct E as [E Es]. assert (y = z) by (exact (holds_place_inj _ _ _ _ W Hy Hz E)). subst z.
    split; [reflexivity|]. destruct W as (_ & _ & Wy). destruct (Wy y Hy) as (_ & _ & M). apply NoDup_app_r in M.
    revert M Is It Es. induction (streams_of (snd y)) as [|x l IH]; intros M Is It Es; [destruct Is|].
    cbn [map] in M. apply NoDup_cons_iff in M. destruct M as [Nx M]. destruct Is as [->|Is], It as [->|It]; auto.
    + destruct Nx. rewrite Es. apply in_map. exact It.
    + destruct Nx. rewrite <- Es. apply in_map. exact Is.
  - intros y z s Hy Hz Is E. unfold address in E. apply join_inj in E;
      [|apply NP|intros F; apply app_eq_nil in F; destruct F; discriminate|eapply holds_plain; eauto|apply PS; auto].
    unfold place at 1 in E. apply app_inj_tail in E. destruct E as [E En].
    destruct (holds_parent _ _ _ Hy) as [(El & Ic)|(w & Hw & Ic & Ew)].
    + destruct (holds_place _ _ _ Hz) as (c & p & _ & Ep). rewrite El, Ep in E.
      apply (f_equal (@length pystr)) in E. rewrite app_length in E. cbn in E. lia.
    + assert (w = z) by (apply (holds_place_inj _ _ _ _ W Hw Hz); congruence). subst w.
      destruct W as (_ & _ & Wy). destruct (Wy z Hz) as (_ & _ & M).
      apply (NoDup_app_disjoint _ _ (fst s) M); [rewrite <- En; apply in_map; exact Ic|apply in_map; exact Is].
Qed.
Print Assumptions C44_addresses_unique.

(** C44.  Crawling from a component visits exactly the components in it, each once. *)
Theorem C44_crawl_visits_each_once :
  forall loc c, well_named loc [c] ->
    NoDup (crawl_components (loc, c)) /\
    forall y, In y (crawl_components (loc, c)) <-> holds loc [c] y.
Proof.
  intros loc c W. pose proof (crawl_components_perm (loc, c)) as P. cbn [fst snd] in P. split.
  - apply (Permutation_NoDup (Permutation_sym P)). apply (NoDup_map_inv place). apply NoDup_preorder.
    intros y Hy. destruct W as (_ & _ & Wy). destruct (Wy y Hy) as (_ & _ & M). exact (NoDup_app_l _ _ M).
  - intros y. rewrite <- In_preorder. split; intros I; [exact (Permutation_in _ P I)|exact (Permutation_in _ (Permutation_sym P) I)].
Qed.
Print Assumptions C44_crawl_visits_each_once.

(** C44.  The address of a stream is the address of its component, a slash and the stream's name. *)
Theorem C44_stream_address :
  forall x, stream_addresses x = map (fun s => address x ++ slash :: fst s) (streams_of (snd x)).
Proof.
  intros x. unfold stream_addresses, address. apply map_ext. intros s.
  assert (P : place x <> []) by (intros E; unfold place in E; apply app_eq_nil in E; destruct E; discriminate).
  revert P. induction (place x) as [|a [|b p] IH]; intros P; [congruence|reflexivity|].
  specialize (IH ltac:(discriminate)). etransitivity; [exact (f_equal (fun t => a ++ slash :: t) IH)|].
  etransitivity; [|apply app_assoc]. reflexivity.
Qed.
Print Assumptions C44_stream_address.

Lemma NoDup_map_on {X Y} (f : X -> Y) l : NoDup l -> (forall x y, In x l -> In y l -> f x = f y -> x = y) -> NoDup (map f l).
Proof.
  induction 1 as [|x l N M IH]; intros H; [constructor|]. cbn [map]. constructor.
  - intros I. apply in_map_iff in I. destruct I as [y [E I]]. apply N. rewrite <- (H y x); [exact I|right; exact I|left; reflexivity|exact E].
  - apply IH. intros a b Ia Ib. apply H; right; assumption.
Qed.

Lemma NoDup_flat_map {X Y} (f : X -> list Y) l : NoDup l -> (forall x, In x l -> NoDup (f x)) ->
  (forall x y z, In x l -> In y l -> In z (f x) -> In z (f y) -> x = y) -> NoDup (flat_map f l).
Proof.
  induction 1 as [|x l N M IH]; intros H1 H2; [constructor|]. cbn [flat_map]. apply NoDup_app_intro.
  - apply H1. left. reflexivity.
  - apply IH; [intros y I; apply H1; right; exact I|intros a b z Ia Ib; apply H2; right; assumption].
  - intros z Iz J. apply in_flat_map in J. destruct J as [y [Iy Jz]]. apply N.
    rewrite (H2 x y z (or_introl eq_refl) (or_intror Iy) Iz Jz). exact Iy.
Qed.

(** C44.  In a well-named system all the addresses, those of the components and those of their
    streams, are different. *)
Theorem C44_all_addresses_differ :
  forall loc c, well_named loc [c] ->
    NoDup (map address (crawl_components (loc, c)) ++ flat_map stream_addresses (crawl_components (loc, c))).
Proof.
  intros loc c W. destruct (C44_crawl_visits_each_once loc c W) as [N V]. destruct (C44_addresses_unique loc [c] W) as (U1 & U2 & U3).
  apply NoDup_app_intro.
  - apply NoDup_map_on; [exact N|]. intros y z Iy Iz. apply U1; apply V; assumption.
  - apply NoDup_flat_map; [exact N| |].
    + intros y Iy. apply V in Iy. unfold stream_addresses. apply NoDup_map_on.
      * destruct W as (_ & _ & Wy). destruct (Wy y Iy) as (_ & _ & M). apply NoDup_app_r in M. exact (NoDup_map_inv _ _ M).
      * intros s t Is It E. destruct (U2 y y s t Iy Iy Is It E) as [_ F]. exact F.
    + intros y z a Iy Iz Ja Jb. apply in_map_iff in Ja, Jb. destruct Ja as [s [<- Is]], Jb as [t [E It]].
      apply V in Iy, Iz. destruct (U2 y z s t Iy Iz Is It (eq_sym E)) as [F _]. exact F.
  - intros a Ia Ja. apply in_map_iff in Ia. destruct Ia as [y [<- Iy]]. apply in_flat_map in Ja. destruct Ja as [z [Iz Ja]].
    apply in_map_iff in Ja. destruct Ja as [s [E Is]]. apply V in Iy, Iz. exact (U3 y z s Iy Iz Is (eq_sym E)).
Qed.
Print Assumptions C44_all_addresses_differ.

(** ** C43 *)

(** Where a unit belongs: [groups loc listed g cs p r] says that the unit at place p, one of those
    in the components cs at location loc, belongs to r: the place of the nearest component, itself
    or around it, that is to have a process of its own, and g if there is none.  A component is to
    have one if its parent lists it; a unit also if it is so marked. *)
Inductive groups : list pystr -> list pystr -> option (list pystr) -> list comp -> list pystr -> option (list pystr) -> Prop :=
| groups_unit loc listed g cs n ss own fs :
    In (UnitC n ss own fs) cs ->
    groups loc listed g cs (loc ++ [n]) (if mem n listed || own then Some (loc ++ [n]) else g)
| groups_coll loc listed g cs n ss cs' l net p r :
    In (CollC n ss cs' l net) cs ->
    groups (loc ++ [n]) l (if mem n listed then Some (loc ++ [n]) else g) cs' p r ->
    groups loc listed g cs p r.

(** The places of the units. *)
Definition unit_at (loc : list pystr) (cs : list comp) (p : list pystr) : Prop :=
  exists y n ss own fs, holds loc cs y /\ snd y = UnitC n ss own fs /\ place y = p.

Lemma groups_each loc listed g cs p r : groups loc listed g cs p r <-> exists c, In c cs /\ groups loc listed g [c] p r.
Proof.
  split.
  - intros H. inversion H; subst.
    + exists (UnitC n ss own fs). split; [assumption|]. econstructor. left. reflexivity.
    + exists (CollC n ss cs' l net). split; [assumption|]. econstructor; [left; reflexivity|eassumption].
  - intros (c & I & H). inversion H; subst.
    + match goal with K : In (UnitC _ _ _ _) _ |- _ => destruct K as [->|[]] end. econstructor; eassumption.
    + match goal with K : In (CollC _ _ _ _ _) _ |- _ => destruct K as [->|[]] end. econstructor; eassumption.
Qed.

Lemma groups_unit_at loc listed g cs p r : groups loc listed g cs p r -> unit_at loc cs p.
Proof.
  induction 1 as [loc listed g cs n ss own fs I|loc listed g cs n ss cs' l net p r I H (y & n' & ss' & own & fs & Hy & E & Ep)].
  - exists (loc, UnitC n ss own fs), n, ss, own, fs. split; [apply holds_here; exact I|]. split; reflexivity.
  - exists y, n', ss', own, fs. split; [|auto]. exact (holds_below loc cs (CollC n ss cs' l net) y I Hy).
Qed.

Lemma unit_at_groups loc cs p : unit_at loc cs p -> forall listed g, exists r, groups loc listed g cs p r.
Proof.
  intros (y & n & ss & own & fs & H & E & <-). induction H as [loc cs c I|loc cs c y I H IH]; intros listed g.
  - cbn in E. subst c. eexists. apply (groups_unit loc listed g cs n ss own fs I).
  - destruct c as [n' ss' own' fs'|n' ss' cs' l net].
    + inversion H; match goal with K : In _ (children_of _) |- _ => destruct K end.
    + destruct (IH E l (if mem n' listed then Some (loc ++ [n']) else g)) as (r & R). exists r.
      eapply groups_coll; eauto.
Qed.

Lemma groups_prefix loc listed g cs p r : groups loc listed g cs p r ->
  (exists c q, In c cs /\ p = loc ++ name_of c :: q /\ (r = g \/ exists q', r = Some (loc ++ name_of c :: q'))).
Proof.
  induction 1 as [loc listed g cs n ss own fs I|loc listed g cs n ss cs' l net p r I H (c & q & Ic & Ep & Er)].
  - exists (UnitC n ss own fs), []. split; [exact I|]. split; [reflexivity|]. destruct (mem n listed || own); [right; exists []; reflexivity|auto].
  - exists (CollC n ss cs' l net), (name_of c :: q). split; [exact I|]. cbn [name_of]. split; [rewrite Ep, <- app_assoc; reflexivity|].
    destruct Er as [->|(q' & ->)].
    + destruct (mem n listed); [right; exists []; reflexivity|auto].
    + right. exists (name_of c :: q'). rewrite <- app_assoc. reflexivity.
Qed.

(** The processes with the group each is for. *)
Definition Labels (loc listed : list pystr) (cs : list comp) (ps : list (list (list pystr))) (us : list (list pystr)) : Prop :=
  exists Gs : list (list pystr),
    length Gs = length ps /\ NoDup Gs /\
    (forall G, In G Gs -> exists c q, In c cs /\ G = loc ++ name_of c :: q) /\
    (forall i G us', nth_error Gs i = Some G -> nth_error ps i = Some us' ->
       us' <> [] /\ forall p, In p us' -> groups loc listed None cs p (Some G)) /\
    (forall p, In p us -> groups loc listed None cs p None).

Lemma groups_shift loc listed g g' cs p r :
  groups loc listed g cs p r -> (r = g /\ groups loc listed g' cs p g') \/ groups loc listed g' cs p r.
Proof.
  intros H. revert g'. induction H as [loc listed g cs n ss own fs I|loc listed g cs n ss cs' l net p r I H IH]; intros g'.
  - pose proof (groups_unit loc listed g' cs n ss own fs I) as K. destruct (mem n listed || own); auto.
  - destruct (mem n listed) eqn:M.
    + right. eapply groups_coll; [exact I|]. rewrite M. exact H.
    + destruct (IH g') as [(E & K)|K]; [left; split; [exact E|]|right]; (eapply groups_coll; [exact I|]; rewrite M; exact K).
Qed.

Lemma Labels_nil loc listed : Labels loc listed [] [] [].
Proof.
  exists []. split; [reflexivity|]. split; [constructor|]. split; [intros G []|]. split; [intros [|i] G us' E; discriminate|intros p []].
Qed.

Lemma groups_mono loc listed g cs cs' p r : (forall c, In c cs -> In c cs') -> groups loc listed g cs p r -> groups loc listed g cs' p r.
Proof. intros S H. apply groups_each in H. destruct H as (c & I & H). apply groups_each. exists c. auto. Qed.

Lemma Labels_app loc listed c cs p1 u1 p2 u2 :
  ~ In (name_of c) (map name_of cs) ->
  Labels loc listed [c] p1 u1 -> Labels loc listed cs p2 u2 -> Labels loc listed (c :: cs) (p1 ++ p2) (u1 ++ u2).
Proof.
  intros Nc (G1 & L1 & N1 & W1 & P1 & U1) (G2 & L2 & N2 & W2 & P2 & U2). exists (G1 ++ G2).
  split; [rewrite !app_length; lia|]. split; [|split; [|split]].
  - apply NoDup_app_intro; auto. intros G I J. destruct (W1 G I) as (c1 & q1 & [<-|[]] & E1). destruct (W2 G J) as (c2 & q2 & I2 & E2).
    rewrite E1 in E2. apply app_inv_head in E2. injection E2 as E2 _. apply Nc. rewrite E2. apply in_map. exact I2.
  - intros G I. apply in_app_or in I. destruct I as [I|I].
    + destruct (W1 G I) as (c1 & q1 & [<-|[]] & E1). exists c, q1. split; [left; reflexivity|exact E1].
    + destruct (W2 G I) as (c2 & q2 & I2 & E2). exists c2, q2. split; [right; exact I2|exact E2].
  - intros i G us' Ei Eu. destruct (lt_dec i (length G1)) as [Li|Li].
    + rewrite nth_error_app1 in Ei by exact Li. rewrite nth_error_app1 in Eu by lia. destruct (P1 i G us' Ei Eu) as (Ne & K).
      split; [exact Ne|]. intros p I. eapply groups_mono; [|apply K; exact I]. intros x [<-|[]]. left. reflexivity.
    + rewrite nth_error_app2 in Ei by lia. rewrite nth_error_app2 in Eu by lia. rewrite <- L1 in Eu. destruct (P2 _ G us' Ei Eu) as (Ne & K).
      split; [exact Ne|]. intros p I. eapply groups_mono; [|apply K; exact I]. intros x Ix. right. exact Ix.
  - intros p I. apply in_app_or in I. destruct I as [I|I].
    + eapply groups_mono; [|apply U1; exact I]. intros x [<-|[]]. left. reflexivity.
    + eapply groups_mono; [|apply U2; exact I]. intros x Ix. right. exact Ix.
Qed.

Lemma Labels_all loc listed cs :
  NoDup (map name_of cs) -> (forall c, In c cs -> Labels loc listed [c] (fst (collect loc listed c)) (snd (collect loc listed c))) ->
  Labels loc listed cs (fst (collect_all loc listed cs)) (snd (collect_all loc listed cs)).
Proof.
  induction cs as [|c cs IH]; intros N H; [apply Labels_nil|]. cbn [collect_all].
  pose proof (H c (or_introl eq_refl)) as Hc. destruct (collect loc listed c) as [p1 u1].
  cbn [map] in N. apply NoDup_cons_iff in N. destruct N as [Nc N].
  specialize (IH N (fun d I => H d (or_intror I))). destruct (collect_all loc listed cs) as [p2 u2]. cbn [fst snd] in *.
  apply Labels_app; assumption.
Qed.

Lemma Labels_one c : forall loc listed,
  (forall y, holds loc [c] y -> NoDup (map name_of (children_of (snd y)))) ->
  Labels loc listed [c] (fst (collect loc listed c)) (snd (collect loc listed c)).
Proof.
  induction c as [n ss own fs|n ss cs l net IH] using comp_ind'; intros loc listed W.
  - cbn [collect]. pose proof (groups_unit loc listed None [UnitC n ss own fs] n ss own fs (or_introl eq_refl)) as G.
    destruct (mem n listed || own); cbn [fst snd].
    + exists [loc ++ [n]]. split; [reflexivity|]. split; [repeat constructor; intros []|]. split; [|split; [|intros p []]].
      * intros G' [<-|[]]. exists (UnitC n ss own fs), []. split; [left; reflexivity|reflexivity].
      * intros [|[|i]] G' us' E1 E2; cbn in E1, E2; [|discriminate..]. injection E1 as <-. injection E2 as <-.
        split; [discriminate|]. intros p [<-|[]]. exact G.
    + exists []. split; [reflexivity|]. split; [constructor|]. split; [intros G' []|]. split; [intros [|i] G' us' E; discriminate|].
      intros p [<-|[]]. exact G.
  - rewrite collect_coll. cbv zeta. rewrite Forall_forall in IH.
    assert (N : NoDup (map name_of cs)) by (apply (W (loc, CollC n ss cs l net)); apply holds_singleton; auto).
    assert (L : Labels (loc ++ [n]) l cs (fst (collect_all (loc ++ [n]) l cs)) (snd (collect_all (loc ++ [n]) l cs))).
    { apply Labels_all; [exact N|]. intros c I. apply (IH c I). intros y Hy. apply W. apply holds_singleton. right.
      cbn [name_of children_of]. apply holds_each. exists c. auto. }
    destruct (collect_all (loc ++ [n]) l cs) as [ps us]. cbn [fst snd] in *. destruct L as (Gs & L1 & L2 & L3 & L4 & L5).
    assert (Down : forall g p r, groups (loc ++ [n]) l (if mem n listed then Some (loc ++ [n]) else g) cs p r ->
                     groups loc listed g [CollC n ss cs l net] p r).
    { intros g p r H. eapply groups_coll; [left; reflexivity|exact H]. }
    assert (W3 : forall G, In G Gs -> exists c q, In c [CollC n ss cs l net] /\ G = loc ++ name_of c :: q).
    { intros G I. destruct (L3 G I) as (c & q & _ & ->). exists (CollC n ss cs l net), (name_of c :: q). split; [left; reflexivity|].
      cbn [name_of]. rewrite <- app_assoc. reflexivity. }
    assert (Dn : forall p G, groups (loc ++ [n]) l None cs p (Some G) -> groups loc listed None [CollC n ss cs l net] p (Some G)).
    { intros p G H. apply Down. destruct (groups_shift _ _ _ (if mem n listed then Some (loc ++ [n]) else None) _ _ _ H) as [(F & _)|K]; [discriminate|exact K]. }
    destruct (mem n listed) eqn:M.
    + destruct us as [|u us].
      * cbn [fst snd]. exists Gs. split; [exact L1|]. split; [exact L2|]. split; [exact W3|]. split; [|intros p []].
        intros i G us' E1 E2. destruct (L4 i G us' E1 E2) as (Ne & K). split; [exact Ne|]. intros p I. apply Dn. exact (K p I).
      * cbn [fst snd]. exists (Gs ++ [loc ++ [n]]). split; [rewrite !app_length, L1; reflexivity|]. split; [|split; [|split; [|intros p []]]].
        -- apply NoDup_app_intro; [exact L2|repeat constructor; intros []|]. intros G I [<-|[]]. destruct (L3 _ I) as (c & q & _ & E).
           apply (f_equal (@length pystr)) in E. rewrite !app_length in E. cbn in E. lia.
        -- intros G I. apply in_app_or in I. destruct I as [I|[<-|[]]]; [exact (W3 G I)|]. exists (CollC n ss cs l net), []. split; [left; reflexivity|reflexivity].
        -- intros i G us' E1 E2. destruct (lt_dec i (length Gs)) as [Li|Li].
           ++ rewrite nth_error_app1 in E1 by exact Li. rewrite nth_error_app1 in E2 by lia. destruct (L4 i G us' E1 E2) as (Ne & K).
              split; [exact Ne|]. intros p I. apply Dn. exact (K p I).
           ++ rewrite nth_error_app2 in E1 by lia. rewrite nth_error_app2 in E2 by lia. rewrite <- L1 in E2.
              destruct (i - length Gs) as [|[|j]]; cbn in E1, E2; [|discriminate..]. injection E1 as <-. injection E2 as <-.
              split; [discriminate|]. intros p I. apply Down.
              destruct (groups_shift _ _ _ (Some (loc ++ [n])) _ _ _ (L5 p I)) as [(_ & K)|K]; [exact K|].
              pose proof K as K'. apply groups_prefix in K'. destruct K' as (c & q & _ & _ & [F|(q' & F)]); discriminate.
    + exists Gs. split; [exact L1|]. split; [exact L2|]. split; [exact W3|]. split.
      * intros i G us' E1 E2. destruct (L4 i G us' E1 E2) as (Ne & K). split; [exact Ne|]. intros p I. apply Dn. exact (K p I).
      * intros p I. apply Down. exact (L5 p I).
Qed.

Lemma collect_perm_one c : forall loc listed,
  Permutation (concat (fst (collect loc listed c)) ++ snd (collect loc listed c))
              (map place (filter (fun y => match snd y with UnitC _ _ _ _ => true | _ => false end) (preorder loc c))).
Proof.
  induction c as [n ss own fs|n ss cs l net IH] using comp_ind'; intros loc listed.
  - cbn [collect preorder filter snd map]. destruct (mem n listed || own); cbn; reflexivity.
  - rewrite collect_coll. cbv zeta. cbn [preorder filter snd].
    assert (P : Permutation (concat (fst (collect_all (loc ++ [n]) l cs)) ++ snd (collect_all (loc ++ [n]) l cs))
                (map place (filter (fun y => match snd y with UnitC _ _ _ _ => true | _ => false end) (flat_map (preorder (loc ++ [n])) cs)))).
    { clear -IH. induction cs as [|c cs IHc]; [constructor|]. inversion IH as [|x y Hc Hcs]; subst. cbn [collect_all flat_map].
      specialize (Hc (loc ++ [n]) l). specialize (IHc Hcs).
      destruct (collect (loc ++ [n]) l c) as [p1 u1]. destruct (collect_all (loc ++ [n]) l cs) as [p2 u2]. cbn [fst snd] in *.
      rewrite filter_app, map_app, <- Hc, <- IHc, concat_app, <- !app_assoc. apply Permutation_app_head.
      rewrite !app_assoc. apply Permutation_app_tail. apply Permutation_app_comm. }
    destruct (collect_all (loc ++ [n]) l cs) as [ps us]. cbn [fst snd] in *. rewrite <- P. destruct (mem n listed); [|reflexivity].
    destruct us as [|u us]; cbn [fst snd]; [reflexivity|]. rewrite concat_app. cbn [concat]. rewrite !app_nil_r. reflexivity.
Qed.

Lemma collect_perm loc listed cs :
  Permutation (concat (fst (collect_all loc listed cs)) ++ snd (collect_all loc listed cs))
              (map place (filter (fun y => match snd y with UnitC _ _ _ _ => true | _ => false end) (flat_map (preorder loc) cs))).
Proof.
  induction cs as [|c cs IHc]; [constructor|]. cbn [collect_all flat_map].
  pose proof (collect_perm_one c loc listed) as Hc.
  destruct (collect loc listed c) as [p1 u1]. destruct (collect_all loc listed cs) as [p2 u2]. cbn [fst snd] in *.
  rewrite filter_app, map_app, <- Hc, <- IHc, concat_app, <- !app_assoc. apply Permutation_app_head.
  rewrite !app_assoc. apply Permutation_app_tail. apply Permutation_app_comm.
Qed.

Lemma In_units loc cs p :
  In p (map place (filter (fun y => match snd y with UnitC _ _ _ _ => true | _ => false end) (flat_map (preorder loc) cs))) <-> unit_at loc cs p.
Proof.
  rewrite in_map_iff. split.
  - intros (y & E & I). apply filter_In in I. destruct I as [I F]. apply in_flat_map in I. destruct I as (c & Ic & J). apply In_preorder in J.
    destruct (snd y) as [n ss own fs|] eqn:S; [|discriminate]. exists y, n, ss, own, fs. split; [|auto]. apply holds_each. exists c. auto.
  - intros (y & n & ss & own & fs & H & S & E). exists y. split; [exact E|]. apply filter_In. rewrite S. split; [|reflexivity].
    apply holds_each in H. destruct H as (c & Ic & J). apply in_flat_map. exists c. split; [exact Ic|]. apply In_preorder. exact J.
Qed.

(** C43.  In a well-named system each unit occurs exactly once among the processes, nothing else
    does, and no process is empty. *)
Theorem C43_each_unit_in_one_process :
  forall loc cs listed, well_named loc cs ->
    let ps := collect_processes loc listed cs in
    NoDup (concat ps) /\ (forall p, In p (concat ps) <-> unit_at loc cs p) /\ (forall us, In us ps -> us <> []).
Proof.
  intros loc cs listed W ps.
  assert (NP : NoDup (map place (filter (fun y => match snd y with UnitC _ _ _ _ => true | _ => false end) (flat_map (preorder loc) cs)))).
  { assert (N : NoDup (map place (flat_map (preorder loc) cs))).
    { apply NoDup_preorders; [|apply W]. intros c I. apply NoDup_preorder. intros y Hy. destruct W as (_ & _ & Wy).
      destruct (Wy y) as (_ & _ & M); [apply holds_each; exists c; auto|]. exact (NoDup_app_l _ _ M). }
    revert N. generalize (flat_map (preorder loc) cs). intros ys. induction ys as [|y ys IH]; intros N; [constructor|].
    cbn [map] in N. apply NoDup_cons_iff in N. destruct N as [Ny N]. cbn [filter].
    destruct (snd y); [|exact (IH N)]. cbn [map]. constructor; [|exact (IH N)]. intros I. apply Ny.
    apply in_map_iff in I. destruct I as (z & E & I). apply filter_In in I. apply in_map_iff. exists z. tauto. }
  pose proof (collect_perm loc listed cs) as P.
  assert (L : Labels loc listed cs (fst (collect_all loc listed cs)) (snd (collect_all loc listed cs))).
  { apply Labels_all; [apply W|]. intros c I. apply Labels_one. intros y Hy. destruct W as (_ & _ & Wy).
    destruct (Wy y) as (_ & _ & M); [apply holds_each; exists c; auto|]. exact (NoDup_app_l _ _ M). }
  assert (P' : Permutation (concat ps) (map place (filter (fun y => match snd y with UnitC _ _ _ _ => true | _ => false end) (flat_map (preorder loc) cs)))).
  { rewrite <- P. unfold ps, collect_processes. destruct (collect_all loc listed cs) as [p us]. cbn [fst snd].
    destruct us as [|u us]; [rewrite app_nil_r; reflexivity|]. cbn [concat]. apply Permutation_app_comm. }
  split; [exact (Permutation_NoDup (Permutation_sym P') NP)|]. split.
  - intros p. rewrite <- In_units. split; intros I; [exact (Permutation_in _ P' I)|exact (Permutation_in _ (Permutation_sym P') I)].
  - destruct L as (Gs & L1 & _ & _ & L4 & _). unfold ps, collect_processes. destruct (collect_all loc listed cs) as [p us]. cbn [fst snd] in *.
    assert (Np : forall us', In us' p -> us' <> []).
    { intros us' I. apply In_nth_error in I. destruct I as (i & Ei). destruct (nth_error Gs i) as [G|] eqn:EG.
      - exact (proj1 (L4 i G us' EG Ei)).
      - apply nth_error_None in EG. assert (i < length p) by (apply nth_error_Some; congruence). lia. }
    destruct us as [|u us]; [exact Np|]. intros us' [<-|I]; [discriminate|exact (Np us' I)].
Qed.
Print Assumptions C43_each_unit_in_one_process.

Lemma groups_fun : forall loc listed g cs p r, groups loc listed g cs p r -> well_named loc cs -> forall r', groups loc listed g cs p r' -> r = r'.
Proof.
  induction 1 as [loc listed g cs n ss own fs I|loc listed g cs n ss cs' l net p r I H IH]; intros W r' H'.
      - inversion H' as [l0 li0 g0 cs0 n0 ss0 own0 fs0 I0 E1 E2 E3 E4 E5|l0 li0 g0 cs0 n0 ss0 cs1 l1 net1 p0 r0 I0 H0]; subst.
        + apply app_inj_tail in E5. destruct E5 as [_ ->].
          assert (E : UnitC n ss own fs = UnitC n ss0 own0 fs0) by (apply (NoDup_name_eq cs); [apply W|exact I|exact I0|reflexivity]).
          injection E as <- <- <-. reflexivity.
        + destruct (groups_prefix _ _ _ _ _ _ H0) as (c & q & _ & E & _). apply (f_equal (@length pystr)) in E.
          rewrite !app_length in E. cbn in E. lia.
      - pose proof (groups_prefix _ _ _ _ _ _ H) as (c & q & _ & E & _).
        inversion H' as [l0 li0 g0 cs0 n0 ss0 own0 fs0 I0 E1 E2 E3 E4 E5|l0 li0 g0 cs0 n0 ss0 cs1 l1 net1 p0 r0 I0 H0]; subst.
        + apply (f_equal (@length pystr)) in E5. rewrite !app_length in E5. cbn in E5. lia.
        + pose proof (groups_prefix _ _ _ _ _ _ H0) as (c' & q' & _ & E' & _).
          rewrite <- !app_assoc in E'. cbn [app] in E'. apply app_inv_head in E'. injection E' as E' _ _.
          assert (Ec : CollC n ss cs' l net = CollC n0 ss0 cs1 l1 net1) by (apply (NoDup_name_eq cs); [apply W|exact I|exact I0|exact E']).
          injection Ec as <- <- <- <- <-. apply IH; [exact (well_named_below loc cs _ W I)|exact H0].
Qed.

(** C43.  Two units share a process exactly if they belong to the same group. *)
Theorem C43_units_share_a_process_iff_same_group :
  forall loc cs listed p q r s, well_named loc cs ->
    groups loc listed None cs p r -> groups loc listed None cs q s ->
    ((exists us, In us (collect_processes loc listed cs) /\ In p us /\ In q us) <-> r = s).
Proof.
  intros loc cs listed p q r s W Gp Gq.
  destruct (C43_each_unit_in_one_process loc cs listed W) as (ND & CV & _). cbv zeta in *.
  assert (L : Labels loc listed cs (fst (collect_all loc listed cs)) (snd (collect_all loc listed cs))).
  { apply Labels_all; [apply W|]. intros c I. apply Labels_one. intros y Hy. destruct W as (_ & _ & Wy).
    destruct (Wy y) as (_ & _ & M); [apply holds_each; exists c; auto|]. exact (NoDup_app_l _ _ M). }
  assert (Fun : forall p r r', groups loc listed None cs p r -> groups loc listed None cs p r' -> r = r').
  { intros p0 r0 r0' A B. exact (groups_fun _ _ _ _ _ _ A W r0' B). }
  destruct L as (Gs & L1 & L2 & _ & L4 & L5).
  assert (Pu : forall x, In x (concat (collect_processes loc listed cs)) ->
     (In x (snd (collect_all loc listed cs)) \/ exists i us', nth_error (fst (collect_all loc listed cs)) i = Some us' /\ In x us')).
  { unfold collect_processes. destruct (collect_all loc listed cs) as [ps us]. cbn [fst snd]. intros x I.
    assert (I' : In x us \/ In x (concat ps)) by (destruct us; [right; exact I|cbn [concat] in I; apply in_app_or in I; exact I]).
    destruct I' as [I'|I']; [auto|right]. apply in_concat in I'. destruct I' as (us' & J & K). apply In_nth_error in J. destruct J as (i & J). exists i, us'. auto. }
  assert (Mem : forall us', In us' (fst (collect_all loc listed cs)) -> In us' (collect_processes loc listed cs)).
  { unfold collect_processes. destruct (collect_all loc listed cs) as [ps us]. cbn [fst]. intros us' I. destruct us; [exact I|right; exact I]. }
  assert (MemU : snd (collect_all loc listed cs) <> [] -> In (snd (collect_all loc listed cs)) (collect_processes loc listed cs)).
  { unfold collect_processes. destruct (collect_all loc listed cs) as [ps us]. cbn [snd]. intros N. destruct us; [congruence|left; reflexivity]. }
  assert (Inv : forall us, In us (collect_processes loc listed cs) -> us = snd (collect_all loc listed cs) \/ exists i, nth_error (fst (collect_all loc listed cs)) i = Some us).
  { unfold collect_processes. destruct (collect_all loc listed cs) as [ps us]. cbn [fst snd]. intros us' I.
    destruct us; [right; apply In_nth_error; exact I|]. destruct I as [<-|I]; [left; reflexivity|right; apply In_nth_error; exact I]. }
  assert (Lab : forall i us', nth_error (fst (collect_all loc listed cs)) i = Some us' -> exists G, nth_error Gs i = Some G).
  { intros i us' E. destruct (nth_error Gs i) as [G|] eqn:EG; [eauto|]. apply nth_error_None in EG.
    assert (i < length (fst (collect_all loc listed cs))) by (apply nth_error_Some; congruence). lia. }
  split.
  - intros (us & Iu & Ip & Iq). destruct (Inv us Iu) as [->|(i & Ei)].
    + rewrite (Fun p r None Gp (L5 p Ip)), (Fun q s None Gq (L5 q Iq)). reflexivity.
    + destruct (Lab i us Ei) as (G & EG). destruct (L4 i G us EG Ei) as (_ & K).
      rewrite (Fun p r _ Gp (K p Ip)), (Fun q s _ Gq (K q Iq)). reflexivity.
  - intros <-. pose proof (proj2 (CV p) (groups_unit_at _ _ _ _ _ _ Gp)) as Ip. pose proof (proj2 (CV q) (groups_unit_at _ _ _ _ _ _ Gq)) as Iq.
    destruct (Pu p Ip) as [Jp|(i & us1 & Ei & Jp)], (Pu q Iq) as [Jq|(j & us2 & Ej & Jq)].
    + exists (snd (collect_all loc listed cs)). split; [apply MemU; intros E; rewrite E in Jp; destruct Jp|]. auto.
    + destruct (Lab j us2 Ej) as (G & EG). destruct (L4 j G us2 EG Ej) as (_ & K).
      pose proof (Fun _ _ _ Gp (L5 p Jp)). pose proof (Fun _ _ _ Gq (K q Jq)). congruence.
    + destruct (Lab i us1 Ei) as (G & EG). destruct (L4 i G us1 EG Ei) as (_ & K).
      pose proof (Fun _ _ _ Gq (L5 q Jq)). pose proof (Fun _ _ _ Gp (K p Jp)). congruence.
    + destruct (Lab i us1 Ei) as (G1 & EG1). destruct (L4 i G1 us1 EG1 Ei) as (_ & K1).
      destruct (Lab j us2 Ej) as (G2 & EG2). destruct (L4 j G2 us2 EG2 Ej) as (_ & K2).
      pose proof (Fun _ _ _ Gp (K1 p Jp)). pose proof (Fun _ _ _ Gq (K2 q Jq)).
      assert (G1 = G2) by congruence. subst G2.
      assert (i = j) by (apply (proj1 (NoDup_nth_error Gs) L2); [apply nth_error_Some; congruence|congruence]). subst j.
      exists us1. split; [apply Mem; eapply nth_error_In; exact Ei|]. split; [exact Jp|congruence].
Qed.
Print Assumptions C43_units_share_a_process_iff_same_group.

(** C43.  Setting up a well-named system places every unit, and the relay unit of every boundary
    endpoint, in exactly one process, and nothing else; on force_single_process there is one
    process, otherwise none is empty. *)
Theorem C43_setup_places_every_unit :
  forall root cs conns listed force ctx,
    let loc := match root with Some r => [r] | None => [] end in
    well_named loc cs -> no_relay_names loc cs ->
    setup root cs conns listed force = SetupOk ctx ->
    NoDup (concat (processes ctx)) /\
    (forall p, In p (concat (processes ctx)) <->
       unit_at loc cs p \/ exists y s n, boundary loc cs y s n /\ p = place y ++ [n]) /\
    (if force then length (processes ctx) = 1 else forall us, In us (processes ctx) -> us <> []).
Proof.
  intros root cs conns listed force ctx loc W NR E. unfold setup in E. fold loc in E.
  destruct (add_relays_all cs) as [cs'|] eqn:A; [|discriminate].
  pose proof (well_named_added _ _ _ W NR A) as W'.
  destruct (C43_each_unit_in_one_process loc cs' listed W') as (ND & CV & NE). cbv zeta in *.
  assert (C : concat (processes ctx) = concat (collect_processes loc listed cs') /\
              (if force then length (processes ctx) = 1 else processes ctx = collect_processes loc listed cs')).
  { destruct force.
    - injection E as <-. cbn [processes concat length]. rewrite app_nil_r. auto.
    - destruct (collect_processes loc listed cs') as [|u us]; [discriminate|]. injection E as <-. auto. }
  destruct C as (C1 & C2). rewrite C1. split; [exact ND|]. split.
  - intros p. rewrite CV. split.
    + intros (y' & n & ss & own & fs & H & S & <-). assert (X : cs' = cs' ++ []) by (rewrite app_nil_r; reflexivity).
      destruct (holds_added _ _ _ H cs cs' [] X A) as [(y & Hy & El & Ec)|[(y & s & m & Hb & ->)|(_ & [])]]; [intros r []| |].
      * left. exists y, n, ss, own, fs. split; [exact Hy|]. destruct (add_relays_same _ _ Ec) as (En & _). rewrite S in Ec.
        assert (Es : snd y = UnitC n ss own fs).
        { destruct (snd y) as [n0 ss0 o0 f0|n0 ss0 cs0 l0 net0]; [injection Ec as <- <- <- <-; reflexivity|].
          rewrite add_relays_coll in Ec. destruct (add_relays_all cs0); [|discriminate]. destruct (relay_units ss0 (map name_of cs0)); discriminate. }
        split; [exact Es|]. unfold place. rewrite El, En. reflexivity.
      * right. exists y, s, m. split; [exact Hb|reflexivity].
    + intros [(y & n & ss & own & fs & H & S & <-)|(y & s & n & Hb & ->)].
      * destruct (holds_added_orig _ _ _ H cs' [] A) as (c' & Ec & Hc). rewrite app_nil_r in Hc. rewrite S in Ec. injection Ec as <-.
        exists (fst y, UnitC n ss own fs), n, ss, own, fs. split; [exact Hc|]. split; [reflexivity|]. unfold place. rewrite S. reflexivity.
      * exists (place y, relay_unit n), n, [(INPUT, Plain); (OUTPUT, Plain)], false, []. split; [exact (holds_relay _ _ _ _ _ _ A Hb)|]. split; reflexivity.
  - destruct force; [exact C2|]. rewrite C2. exact NE.
Qed.
Print Assumptions C43_setup_places_every_unit.

(** The collection "A" with an input boundary "I" and children "U", "V"; "V" listed; the unit "W"
    with a function marked as running in its own process; the unit "X". *)
Notation ch n := ([n%N] : pystr) (only parsing).
Definition example_coll : comp :=
  CollC (ch 65) [(ch 73, InputRelay)]
        [UnitC (ch 85) [(ch 73, Plain)] false []; UnitC (ch 86) [] false []] [ch 86]
        [(Inner [ch 73], Inner [ch 85; ch 73])].
Definition example_system : list comp := [example_coll; UnitC (ch 87) [(ch 79, Plain)] false [ch 102]; UnitC (ch 88) [] false []].

Ltac nodup := repeat (constructor; [let I := fresh in intros I; cbn in I; intuition discriminate|]); try constructor.
Ltac plains := let I := fresh in intros I; cbn in I; intuition discriminate.

Lemma example_holds y : holds [] example_system y ->
  In y [([], example_coll); ([], UnitC (ch 87) [(ch 79, Plain)] false [ch 102]); ([], UnitC (ch 88) [] false []);
        ([ch 65], UnitC (ch 85) [(ch 73, Plain)] false []); ([ch 65], UnitC (ch 86) [] false [])].
Proof.
  intros H. apply holds_each in H. destruct H as (c & I & H). apply In_preorder in H.
  destruct I as [<-|[<-|[<-|[]]]]; cbn in H; cbn; tauto.
Qed.

Lemma example_well_named : well_named [] example_system.
Proof.
  split; [intros n []|]. split; [cbn; nodup|]. intros y H. apply example_holds in H.
  destruct H as [<-|[<-|[<-|[<-|[<-|[]]]]]]; cbn;
    (split; [plains|]; split; [intros s I; cbn in I; intuition subst; plains|unfold members_differ; cbn; nodup]).
Qed.

Lemma example_no_relay_names : no_relay_names [] example_system.
Proof.
  intros y s H I t. apply example_holds in H.
  destruct H as [<-|[<-|[<-|[<-|[<-|[]]]]]]; cbn in I; intuition subst; discriminate.
Qed.

Example C43_case :
  well_named [] example_system /\ no_relay_names [] example_system /\
  setup None example_system [(ch 84, [65; 47; 73]%N)] [] false =
    SetupOk (Context [[[ch 65; ch 85]; [ch 65; relay_in_prefix ++ ch 73]; [ch 87]; [ch 88]]; [[ch 65; ch 86]]]
                     [(ch 84, [65; 47; 73]%N);
                      (join [ch 65; relay_in_prefix ++ ch 73; OUTPUT], join [ch 65; ch 85; ch 73]);
                      ([65; 47; 73]%N, join [ch 65; relay_in_prefix ++ ch 73; INPUT])]) /\
  groups [] [] None example_system [ch 65; ch 86] (Some [ch 65; ch 86]) /\
  groups [] [] None example_system [ch 65; ch 85] None /\
  groups [] [] None example_system [ch 88] None.
Proof.
  split; [exact example_well_named|]. split; [exact example_no_relay_names|]. split; [vm_compute; reflexivity|]. split; [|split].
  - eapply groups_coll; [left; reflexivity|]. apply (groups_unit [ch 65] [ch 86] None _ (ch 86) [] false []). right; left; reflexivity.
  - eapply groups_coll; [left; reflexivity|]. apply (groups_unit [ch 65] [ch 86] None _ (ch 85) [(ch 73, Plain)] false []). left; reflexivity.
  - apply (groups_unit [] [] None _ (ch 88) [] false []). right; right; left; reflexivity.
Qed.

Example C44_case :
  well_named [] example_system /\ well_named [] [example_coll] /\
  map address (crawl_components ([], example_coll)) = [ch 65; [65; 47; 86]; [65; 47; 85]]%N.
Proof.
  split; [exact example_well_named|]. split; [|vm_compute; reflexivity].
  pose proof example_well_named as (W1 & _ & W3). split; [exact W1|]. split; [cbn; nodup|].
  intros y H. apply W3. apply holds_each. exists example_coll. split; [left; reflexivity|exact H].
Qed.

(** C43 finding: the decorator @process "designates this function to run in its own process", but
    a unit with such a function shares its process with other units: the attribute is looked up on
    the unit, and the decorator sets it on the function. *)
Theorem C43_process_decorator_is_ignored_refuted :
  exists cs us n ss f fs,
    well_named [] cs /\ In (UnitC n ss false (f :: fs)) cs /\
    In us (collect_processes [] [] cs) /\ In [n] us /\ exists p, In p us /\ p <> [n].
Proof.
  exists example_system, [[ch 65; ch 85]; [ch 87]; [ch 88]], (ch 87), [(ch 79, Plain)], (ch 102), [].
  split; [exact example_well_named|]. split; [right; left; reflexivity|].
  split; [vm_compute; left; reflexivity|]. split; [right; left; reflexivity|]. exists [ch 88]. split; [right; right; left; reflexivity|discriminate].
Qed.
Print Assumptions C43_process_decorator_is_ignored_refuted.

(** C43 finding: a system without units has no processes, and setup says so, unless all are to
    share one process: then an empty process is made. *)
Theorem C43_forced_process_may_be_empty_refuted :
  exists cs, well_named [] cs /\ setup None cs [] [] false = NoContext /\
    exists ctx, setup None cs [] [] true = SetupOk ctx /\ processes ctx = [[]].
Proof.
  exists [CollC (ch 65) [] [] [] []]. split.
  - split; [intros n []|]. split; [cbn; nodup|]. intros y H. apply holds_singleton in H. destruct H as [->|H]; [|inversion H; match goal with K : In _ (children_of _) |- _ => destruct K end].
    cbn. split; [plains|]. split; [intros s []|unfold members_differ; cbn; nodup].
  - split; [vm_compute; reflexivity|]. eexists. split; [vm_compute; reflexivity|reflexivity].
Qed.
Print Assumptions C43_forced_process_may_be_empty_refuted.

(** C44 finding: names with "/" break it: two units in one system with the same address. *)
Theorem C44_slash_in_a_name_refuted :
  exists cs y z, NoDup (map name_of cs) /\ holds [] cs y /\ holds [] cs z /\ y <> z /\ address y = address z.
Proof.
  exists [CollC (ch 65) [] [UnitC (ch 66) [] false []] [] []; UnitC [65; 47; 66]%N [] false []],
         ([ch 65], UnitC (ch 66) [] false []), ([], UnitC [65; 47; 66]%N [] false []).
  split; [cbn; nodup|]. split; [eapply holds_below; [left; reflexivity|]; apply (holds_here [ch 65]); left; reflexivity|].
  split; [apply holds_here; right; left; reflexivity|]. split; [discriminate|reflexivity].
Qed.
Print Assumptions C44_slash_in_a_name_refuted.
