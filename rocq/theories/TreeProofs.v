(* Specification of component trees and lemmas about the model. *)

From Coq Require Import List NArith Arith Bool Lia Permutation.
From Verif Require Import Dict CodecModel TreeModel.
Import ListNotations.

(** ** Specification *)

(** A component of a system: [cs] are the components at location [loc]. *)
Inductive holds : list pystr -> list comp -> located -> Prop :=
| holds_here loc cs c : In c cs -> holds loc cs (loc, c)
| holds_below loc cs c y : In c cs -> holds (loc ++ [name_of c]) (children_of c) y -> holds loc cs y.

(** Names without "/". *)
Definition plain (n : pystr) : Prop := ~ In slash n.

(** The members of a component, its children and streams, have different names. *)
Definition members_differ (c : comp) : Prop := NoDup (map name_of (children_of c) ++ map fst (streams_of c)).

Definition well_named (loc : list pystr) (cs : list comp) : Prop :=
  (forall n, In n loc -> plain n) /\ NoDup (map name_of cs) /\
  forall y, holds loc cs y ->
    plain (name_of (snd y)) /\ (forall s, In s (streams_of (snd y)) -> plain (fst s)) /\ members_differ (snd y).

(** ** Trees *)

Lemma NoDup_app_l {A} (a b : list A) : NoDup (a ++ b) -> NoDup a.
Proof.
  induction a as [|x a IH]; intros N; [constructor|]. cbn in N. apply NoDup_cons_iff in N. destruct N as [Nx N].
  constructor; [|exact (IH N)]. intros I. apply Nx. apply in_or_app. left. exact I.
Qed.

Lemma NoDup_app_r {A} (a b : list A) : NoDup (a ++ b) -> NoDup b.
Proof. induction a as [|x a IH]; intros N; [exact N|]. cbn in N. apply NoDup_cons_iff in N. apply IH. apply N. Qed.

Lemma NoDup_app_disjoint {A} (a b : list A) x : NoDup (a ++ b) -> In x a -> In x b -> False.
Proof.
  induction a as [|y a IH]; intros N I J; [destruct I|]. cbn in N. apply NoDup_cons_iff in N. destruct N as [Ny N].
  destruct I as [->|I]; [apply Ny; apply in_or_app; right; exact J|exact (IH N I J)].
Qed.

Lemma comp_ind' (P : comp -> Prop) :
  (forall n ss o f, P (UnitC n ss o f)) ->
  (forall n ss cs l net, Forall P cs -> P (CollC n ss cs l net)) ->
  forall c, P c.
Proof.
  intros HU HC. fix IH 1. intros [n ss o f|n ss cs l net]; [apply HU|]. apply HC.
  induction cs as [|c cs IHcs]; [constructor|]. constructor; [apply IH|exact IHcs].
Qed.

Lemma size_coll n ss cs l net : size (CollC n ss cs l net) = S (list_sum (map size cs)).
Proof. cbn [size]. f_equal. induction cs as [|c cs IH]; [reflexivity|]. cbn. rewrite IH. reflexivity. Qed.

Lemma size_children c : size c = S (list_sum (map size (children_of c))).
Proof. destruct c; [reflexivity|apply size_coll]. Qed.

Lemma collect_coll loc listed n ss cs l net :
  collect loc listed (CollC n ss cs l net) =
  let r := collect_all (loc ++ [n]) l cs in
  if mem n listed then (match snd r with [] => fst r | us => fst r ++ [us] end, []) else r.
Proof.
  cbn [collect].
  assert (E : (fix all cs := match cs with
                              | [] => ([], [])
                              | c :: cs => let (p1, u1) := collect (loc ++ [n]) l c in
                                           let (p2, u2) := all cs in (p1 ++ p2, u1 ++ u2)
                              end) cs = collect_all (loc ++ [n]) l cs).
  { induction cs as [|c cs IH]; [reflexivity|]. cbn [collect_all]. rewrite IH. reflexivity. }
  rewrite E. reflexivity.
Qed.

Lemma add_relays_coll n ss cs l net :
  add_relays (CollC n ss cs l net) =
  match add_relays_all cs, relay_units ss (map name_of cs) with
  | Some cs', Some rs => Some (CollC n ss (cs' ++ rs) l net)
  | _, _ => None
  end.
Proof.
  cbn [add_relays].
  assert (E : (fix all cs := match cs with
                           | [] => Some []
                           | c :: cs => match add_relays c, all cs with Some c', Some cs' => Some (c' :: cs') | _, _ => None end
                           end) cs = add_relays_all cs).
  { induction cs as [|c cs IH]; [reflexivity|]. cbn [add_relays_all]. rewrite IH. reflexivity. }
  rewrite E. reflexivity.
Qed.

(** ** Addresses *)

Lemma app_slash_inj (a b : pystr) : plain a -> plain b ->
  forall x y, a ++ slash :: x = b ++ slash :: y -> a = b /\ x = y.
Proof.
  unfold plain. revert b. induction a as [|c a IH]; intros [|d b] Pa Pb x y E; cbn in E.
  - injection E as ->. auto.
  - injection E as <- _. destruct Pb. left. reflexivity.
  - injection E as -> _. destruct Pa. left. reflexivity.
  - injection E as -> E. destruct (IH b) with (x := x) (y := y) as (-> & ->); auto; intros I; [apply Pa|apply Pb]; right; exact I.
Qed.

Lemma join_cons s p : p <> [] -> join (s :: p) = s ++ slash :: join p.
Proof. destruct p; [congruence|reflexivity]. Qed.

Lemma join_inj p : forall q, p <> [] -> q <> [] ->
  (forall n, In n p -> plain n) -> (forall n, In n q -> plain n) -> join p = join q -> p = q.
Proof.
  induction p as [|a p IH]; intros [|b q] Np Nq Hp Hq E; try congruence.
  assert (Pa : plain a) by (apply Hp; left; reflexivity). assert (Pb : plain b) by (apply Hq; left; reflexivity).
  destruct p as [|a' p], q as [|b' q].
  - cbn in E. subst. reflexivity.
  - rewrite (join_cons b) in E by discriminate. cbn [join] in E. destruct Pa. rewrite E. apply in_or_app. right. left. reflexivity.
  - rewrite (join_cons a) in E by discriminate. cbn [join] in E. destruct Pb. rewrite <- E. apply in_or_app. right. left. reflexivity.
  - rewrite (join_cons a), (join_cons b) in E by discriminate. apply app_slash_inj in E; auto. destruct E as (-> & E). f_equal.
    apply IH; [discriminate|discriminate|intros n I; apply Hp; right; exact I|intros n I; apply Hq; right; exact I|exact E].
Qed.

(** ** Holding *)

Lemma well_named_below loc cs c : well_named loc cs -> In c cs -> well_named (loc ++ [name_of c]) (children_of c).
Proof.
  intros (Hl & Hn & Hy) Ic. destruct (Hy (loc, c) (holds_here _ _ _ Ic)) as (Pc & Ps & Mc). cbn [snd] in *. split; [|split].
  - intros n I. apply in_app_or in I. destruct I as [I|[<-|[]]]; auto.
  - unfold members_differ in Mc. exact (NoDup_app_l _ _ Mc).
  - intros y Hb. apply Hy. eapply holds_below; eauto.
Qed.

Lemma holds_place loc cs y : holds loc cs y -> exists c p, In c cs /\ place y = loc ++ name_of c :: p.
Proof.
  induction 1 as [loc cs c I|loc cs c y I H (c' & p & _ & E)].
  - exists c, []. split; [exact I|reflexivity].
  - exists c, (name_of c' :: p). split; [exact I|]. rewrite E, <- app_assoc. reflexivity.
Qed.

Lemma holds_plain loc cs y : well_named loc cs -> holds loc cs y -> forall n, In n (place y) -> plain n.
Proof.
  intros W H. induction H as [loc cs c I|loc cs c y I H IH]; intros n J.
  - destruct W as (Wl & _ & Wy). unfold place in J. cbn [fst snd] in J. apply in_app_or in J. destruct J as [J|[<-|[]]]; [auto|].
    destruct (Wy (loc, c) (holds_here _ _ _ I)) as (P & _). exact P.
  - apply IH; [eapply well_named_below; eauto|exact J].
Qed.

Lemma NoDup_name_eq cs (c d : comp) : NoDup (map name_of cs) -> In c cs -> In d cs -> name_of c = name_of d -> c = d.
Proof.
  induction cs as [|x cs IH]; intros N Ic Id E; [destruct Ic|]. cbn in N. apply NoDup_cons_iff in N. destruct N as [Nx N].
  destruct Ic as [->|Ic], Id as [->|Id]; auto.
  - destruct Nx. rewrite E. apply in_map. exact Id.
  - destruct Nx. rewrite <- E. apply in_map. exact Ic.
Qed.

Lemma holds_place_inj loc cs y z : well_named loc cs -> holds loc cs y -> holds loc cs z -> place y = place z -> y = z.
Proof.
  intros W H. revert z. induction H as [loc cs c I|loc cs c y I H IH]; intros z Hz E.
  - inversion Hz as [l' cs' d Id|l' cs' d z' Id Hd]; subst.
    + unfold place in E. cbn [fst snd] in E. apply app_inj_tail in E. destruct E as [_ E].
      rewrite (NoDup_name_eq cs c d (proj1 (proj2 W)) I Id E). reflexivity.
    + destruct (holds_place _ _ _ Hd) as (e & p & _ & Ep). rewrite Ep in E. unfold place in E. cbn [fst snd] in E.
      apply (f_equal (@length pystr)) in E. rewrite !app_length in E. cbn in E. lia.
  - inversion Hz as [l' cs' d Id|l' cs' d z' Id Hd]; subst.
    + destruct (holds_place _ _ _ H) as (e & p & _ & Ep). rewrite Ep in E. unfold place in E. cbn [fst snd] in E.
      apply (f_equal (@length pystr)) in E. rewrite !app_length in E. cbn in E. lia.
    + destruct (holds_place _ _ _ H) as (e & p & _ & Ep). destruct (holds_place _ _ _ Hd) as (e' & p' & _ & Ep').
      assert (Ecd : name_of c = name_of d).
      { rewrite Ep, Ep' in E. rewrite <- !app_assoc in E. cbn [app] in E. apply app_inv_head in E. congruence. }
      assert (c = d) by (exact (NoDup_name_eq cs c d (proj1 (proj2 W)) I Id Ecd)). subst d.
      apply IH; [eapply well_named_below; eauto|exact Hd|exact E].
Qed.

(** The component holding a component is held too, unless that is at the top. *)
Lemma holds_parent loc cs y : holds loc cs y ->
  (fst y = loc /\ In (snd y) cs) \/ exists z, holds loc cs z /\ In (snd y) (children_of (snd z)) /\ fst y = place z.
Proof.
  induction 1 as [loc cs c I|loc cs c y I H [(E & J)|(z & Hz & J & E)]]; [left; auto| |].
  - right. exists (loc, c). split; [apply holds_here; exact I|]. split; [exact J|exact E].
  - right. exists z. split; [eapply holds_below; eauto|]. auto.
Qed.

(** ** Crawling *)

Fixpoint preorder (loc : list pystr) (c : comp) : list located :=
  (loc, c) :: match c with
              | UnitC _ _ _ _ => []
              | CollC n _ cs _ _ => flat_map (preorder (loc ++ [n])) cs
              end.

Lemma preorder_eq loc c : preorder loc c = (loc, c) :: flat_map (preorder (loc ++ [name_of c])) (children_of c).
Proof. destruct c; reflexivity. Qed.

Lemma list_sum_rev a : list_sum (rev a) = list_sum a.
Proof. induction a as [|x a IH]; [reflexivity|]. cbn [rev]. rewrite list_sum_app, IH. unfold list_sum. cbn [fold_right]. lia. Qed.

Lemma Permutation_flat_map_rev {A B} (f : A -> list B) l : Permutation (flat_map f (rev l)) (flat_map f l).
Proof.
  induction l as [|x l IH]; [reflexivity|]. cbn [rev flat_map]. rewrite flat_map_app. cbn [flat_map]. rewrite app_nil_r.
  rewrite Permutation_app_comm. apply Permutation_app_head. exact IH.
Qed.

Lemma crawl_perm fuel : forall search, list_sum (map (fun x => size (snd x)) search) <= fuel ->
  Permutation (crawl fuel search) (flat_map (fun x => preorder (fst x) (snd x)) search).
Proof.
  induction fuel as [|fuel IH]; intros [|[loc c] search] L; cbn [crawl]; try reflexivity.
  - exfalso. unfold list_sum in L. cbn [map fold_right snd] in L. rewrite size_children in L. lia.
  - cbn [map snd] in L. unfold list_sum in L. cbn [fold_right] in L. fold (list_sum (map (fun x : located => size (snd x)) search)) in L. rewrite size_children in L. rewrite IH.
    + cbn [flat_map fst snd]. rewrite preorder_eq. cbn [app]. apply perm_skip. rewrite flat_map_app. apply Permutation_app_tail.
      rewrite Permutation_flat_map_rev. unfold children_at, place. cbn [fst snd]. clear.
      induction (children_of c) as [|d l IHl]; [reflexivity|]. cbn. apply Permutation_app_head. exact IHl.
    + rewrite map_app, list_sum_app, map_rev, list_sum_rev. unfold children_at. rewrite map_map. cbn [snd].
      change (map (fun x : comp => size x) (children_of c)) with (map size (children_of c)).
      unfold list_sum in *. lia.
Qed.

Lemma crawl_components_perm x : Permutation (crawl_components x) (preorder (fst x) (snd x)).
Proof.
  unfold crawl_components. rewrite crawl_perm; [cbn; rewrite app_nil_r; reflexivity|cbn; lia].
Qed.

Lemma holds_singleton loc c y : holds loc [c] y <-> y = (loc, c) \/ holds (loc ++ [name_of c]) (children_of c) y.
Proof.
  split.
  - intros H. inversion H as [l cs d I|l cs d z I Hz]; subst; destruct I as [<-|[]]; auto.
  - intros [->|H]; [apply holds_here; left; reflexivity|]. eapply holds_below; [left; reflexivity|exact H].
Qed.

Lemma holds_each loc cs y : holds loc cs y <-> exists c, In c cs /\ holds loc [c] y.
Proof.
  split.
  - intros H. inversion H as [l cs' d I|l cs' d z I Hz]; subst; exists d; (split; [exact I|]); apply holds_singleton; auto.
  - intros (c & I & H). apply holds_singleton in H. destruct H as [->|H]; [apply holds_here; exact I|eapply holds_below; eauto].
Qed.

Lemma In_preorder c : forall loc y, In y (preorder loc c) <-> holds loc [c] y.
Proof.
  induction c as [n ss o f|n ss cs l net IH] using comp_ind'; intros loc y.
  - cbn. rewrite holds_singleton. split; [intros [<-|[]]; auto|]. intros [->|H]; [auto|]. inversion H; contradiction.
  - rewrite preorder_eq, holds_singleton. cbn [In name_of children_of]. rewrite in_flat_map. rewrite Forall_forall in IH.
    split.
    + intros [<-|(c & I & J)]; [auto|]. right. apply holds_each. exists c. split; [exact I|]. apply (IH c I). exact J.
    + intros [->|H]; [auto|]. right. apply holds_each in H. destruct H as (c & I & J). exists c. split; [exact I|]. apply (IH c I). exact J.
Qed.

Lemma NoDup_app_intro {A} (a b : list A) : NoDup a -> NoDup b -> (forall x, In x a -> ~ In x b) -> NoDup (a ++ b).
Proof.
  induction a as [|x a IH]; intros Na Nb D; [exact Nb|]. apply NoDup_cons_iff in Na. destruct Na as [Nx Na]. cbn. constructor.
  - intros I. apply in_app_or in I. destruct I as [I|I]; [exact (Nx I)|exact (D x (or_introl eq_refl) I)].
  - apply IH; auto. intros y Iy. apply D. right. exact Iy.
Qed.

(** No component occurs twice, given different names. *)
Lemma NoDup_preorders loc : forall cs, (forall c, In c cs -> NoDup (map place (preorder loc c))) ->
  NoDup (map name_of cs) -> NoDup (map place (flat_map (preorder loc) cs)).
Proof.
  induction cs as [|c cs IH]; intros Hc N; [constructor|]. cbn [map] in N. apply NoDup_cons_iff in N. destruct N as [Nc N].
  cbn [flat_map]. rewrite map_app. apply NoDup_app_intro.
  - apply Hc. left. reflexivity.
  - apply IH; [intros d I; apply Hc; right; exact I|exact N].
  - intros p I J. apply in_map_iff in I. destruct I as (y & <- & I). apply in_map_iff in J. destruct J as (z & E & J).
    apply In_preorder in I. destruct (holds_place _ _ _ I) as (c1 & p1 & [<-|[]] & E1).
    apply in_flat_map in J. destruct J as (d & Id & J). apply In_preorder in J. destruct (holds_place _ _ _ J) as (c2 & p2 & [<-|[]] & E2).
    rewrite E1, E2 in E. apply app_inv_head in E. injection E as E _. apply Nc. rewrite <- E. apply in_map. exact Id.
Qed.

Lemma NoDup_preorder c : forall loc, (forall y, holds loc [c] y -> NoDup (map name_of (children_of (snd y)))) -> NoDup (map place (preorder loc c)).
Proof.
  induction c as [n ss o f|n ss cs l net IH] using comp_ind'; intros loc W.
  - cbn. constructor; [intros []|constructor].
  - rewrite preorder_eq. cbn [map name_of children_of]. rewrite Forall_forall in IH.
    assert (Hc : forall c, In c cs -> NoDup (map place (preorder (loc ++ [n]) c))).
    { intros c I. apply (IH c I). intros y Hy. apply W. apply holds_singleton. right. cbn [name_of children_of]. apply holds_each. exists c. auto. }
    constructor.
    + intros I. apply in_map_iff in I. destruct I as (y & E & I). apply in_flat_map in I. destruct I as (c & Ic & J).
      apply In_preorder in J. destruct (holds_place _ _ _ J) as (d & p & _ & Ed). rewrite Ed in E. unfold place in E. cbn [fst snd name_of] in E.
      apply (f_equal (@length pystr)) in E. rewrite !app_length in E. cbn in E. lia.
    + assert (N : NoDup (map name_of cs)) by (apply (W (loc, CollC n ss cs l net)); apply holds_singleton; auto).
      apply NoDup_preorders; assumption.
Qed.
