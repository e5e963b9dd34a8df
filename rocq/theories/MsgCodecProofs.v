(* Proofs about writing messages to a log and reading them back. *)

From Coq Require Import String List NArith ZArith Arith Bool Lia.
From Verif Require Import CodecModel AddressModel AddressProps Dict JsonModel JsonSpec JsonProofs MsgCodecModel MsgCodecSpec.
Import ListNotations.
Open Scope list_scope.

Section ValueInd.
Context {C A O : Type}.
Notation value := (value C A O).
Variable P : value -> Prop.
Hypothesis HNone : P VNone.
Hypothesis HBool : forall b, P (VBool b).
Hypothesis HInt : forall z, P (VInt z).
Hypothesis HFloat : forall f, P (VFloat f).
Hypothesis HStr : forall s, P (VStr s).
Hypothesis HList : forall l, Forall P l -> P (VList l).
Hypothesis HTuple : forall l, Forall P l -> P (VTuple l).
Hypothesis HDict : forall d, Forall (fun p => P (snd p)) d -> P (VDict d).
Hypothesis HData : forall c a, Forall (fun p => P (snd p)) a -> P (VData c a).
Hypothesis HArray : forall a, P (VArray a).
Hypothesis HOther : forall o, P (VOther o).
Fixpoint value_ind' (v : value) : P v :=
  let list_ := fix all l : Forall P l := match l with [] => Forall_nil _ | x :: r => Forall_cons _ (value_ind' x) (all r) end in
  match v with
  | VNone => HNone | VBool b => HBool b | VInt z => HInt z | VFloat f => HFloat f | VStr s => HStr s
  | VList l => HList l (list_ l)
  | VTuple l => HTuple l (list_ l)
  | VDict d => HDict d ((fix all d : Forall (fun p => P (snd p)) d :=
                           match d with [] => Forall_nil _ | x :: r => Forall_cons _ (value_ind' (snd x)) (all r) end) d)
  | VData c d => HData c d ((fix all d : Forall (fun p => P (snd p)) d :=
                           match d with [] => Forall_nil _ | x :: r => Forall_cons _ (value_ind' (snd x)) (all r) end) d)
  | VArray a => HArray a
  | VOther o => HOther o
  end.
End ValueInd.

(** ** Lists and dicts *)

Lemma put_new {X} k (v : X) (d : list (pystr * X)) : ~ In k (keys d) -> put k v d = d ++ [(k, v)].
Proof.
  induction d as [|[k' v'] d IH]; intros H; [reflexivity|]. cbn [put keys map fst In] in *.
  destruct (dec k k') as [->|_]; [exfalso; apply H; left; reflexivity|]. cbn [app]. rewrite IH; [reflexivity|].
  intros I. apply H. right. exact I.
Qed.

Lemma dict_of_app {X} (l d : list (pystr * X)) : NoDup (keys (d ++ l)) ->
  fold_left (fun d p => put (fst p) (snd p) d) l d = d ++ l.
Proof.
  revert d. induction l as [|[k v] l IH]; intros d N; [cbn; now rewrite app_nil_r|]. cbn [fold_left fst snd].
  rewrite put_new.
  - rewrite IH; rewrite <- app_assoc; [reflexivity|exact N].
  - unfold keys in *. rewrite map_app in N. cbn [map fst] in N. apply NoDup_remove_2 in N. intros I. apply N. apply in_or_app. left. exact I.
Qed.

Lemma dict_of_nodup {X} (l : list (pystr * X)) : NoDup (keys l) -> dict_of l = l.
Proof. intros N. exact (dict_of_app l [] N). Qed.

Lemma get_dict_of_In {X} k (x : X) (l : list (pystr * X)) : forall d, 
  get k (fold_left (fun d p => put (fst p) (snd p) d) l d) = Some x -> get k d = Some x \/ In (k, x) l.
Proof.
  induction l as [|[k' v] l IH]; intros d H; [left; exact H|]. cbn [fold_left fst snd] in H.
  apply IH in H. destruct H as [G|I]; [|right; right; exact I]. rewrite get_put in G. destruct (dec k k') as [->|D]; [|left; exact G].
  injection G as ->. right. left. reflexivity.
Qed.

Lemma good_literal s : forallb (fun c => (c <? 128)%N) (u s) = true -> good_string (u s).
Proof.
  intros H. rewrite forallb_forall in H. split.
  - intros c I. specialize (H c I). apply N.ltb_lt in H. lia.
  - induction (u s) as [|c r IH]; [exact I|]. destruct r as [|d r]; [exact I|]. split.
    + intros [K _]. specialize (H c (or_introl eq_refl)). apply N.ltb_lt in H. lia.
    + apply IH. intros x J. apply H. right. exact J.
Qed.

Section Proofs.
Context {C A O : Type}.
Notation value := (value C A O).
Variable fields : C -> list (field C A O).
Variable type_str : C -> pystr.
Variable import_type : pystr -> option C.
Variable call_other : pystr -> list (pystr * value) -> option value.
Variable is_log_start : C -> bool.
Variable dtype : A -> pystr.
Variable shape : A -> list Z.
Variable buffer : A -> option pystr.
Variable from_buffer : pystr -> value -> value -> option A.
Variable pickled : O -> option pystr.
Variable unpickled : pystr -> option value.

Notation encode := (encode fields type_str dtype shape buffer pickled).
Notation decode := (decode fields import_type call_other from_buffer unpickled).
Notation dumps := (dumps fields type_str dtype shape buffer pickled).
Notation read := (read fields import_type call_other from_buffer unpickled).
Notation log_object := (log_object fields type_str dtype shape buffer pickled).
Notation object_hook := (object_hook fields import_type call_other from_buffer unpickled).
Notation written := (written fields type_str dtype shape buffer pickled).
Notation yields := (yields fields import_type call_other is_log_start from_buffer unpickled).
Notation entry := (entry fields import_type call_other from_buffer unpickled).
Notation message_log := (message_log fields import_type call_other is_log_start from_buffer unpickled).
Notation loggable := (loggable fields type_str import_type dtype shape buffer from_buffer pickled unpickled).
Notation restorable_class := (restorable_class fields type_str import_type).

Definition comes_back (v : value) : Prop :=
  exists j, encode v = Some j /\ good_json j /\ decode j = Some (read_back v).

Lemma loggable_list l : loggable (VList l) <-> Forall loggable l.
Proof.
  induction l as [|x r IH]; [split; [constructor|intros _; exact I]|].
  split.
  - intros [Hx Hr]. constructor; [exact Hx|]. apply IH. exact Hr.
  - intros F. inversion F; subst. split; [assumption|]. apply IH. assumption.
Qed.

Lemma loggable_dict d : loggable (VDict d) <->
  Forall (fun p => (exists s, key_string (fst p) = Some s /\ good_string s /\ (s = u "_type" -> snd p = VNone)) /\ loggable (snd p)) d.
Proof.
  induction d as [|[k x] r IH]; [split; [constructor|intros _; exact I]|].
  split.
  - intros [Hk [Hx Hr]]. constructor; [split; assumption|]. apply IH. exact Hr.
  - intros F. inversion F as [|? ? [F1 F2] F3]; subst. split; [assumption|]. split; [assumption|]. apply IH. assumption.
Qed.

Lemma loggable_data c a : loggable (VData c a) <->
  restorable_class c /\ keys a = map f_name (fields c) /\ Forall (fun p => loggable (snd p)) a.
Proof.
  assert (E : (fix all (l : list (pystr * value)) := match l with [] => True | (_, x) :: r => loggable x /\ all r end) a <->
              Forall (fun p => loggable (snd p)) a).
  { induction a as [|[k x] r IH]; [split; [constructor|intros _; exact I]|]. split.
    - intros [Hx Hr]. constructor; [exact Hx|]. apply IH. exact Hr.
    - intros F. inversion F; subst. split; [assumption|]. apply IH. assumption. }
  split; intros [H1 [H2 H3]]; (split; [exact H1|split; [exact H2|apply E; exact H3]]).
Qed.

Lemma all_back l : Forall comes_back l ->
  exists js, all_some (map encode l) = Some js /\ Forall good_json js /\ all_some (map decode js) = Some (map read_back l).
Proof.
  induction 1 as [|x l [j [E [G D]]] F [js [Es [Gs Ds]]]]; [exists []; repeat split; constructor|].
  exists (j :: js). cbn [map all_some]. rewrite E, D, Es, Ds. repeat split. constructor; assumption.
Qed.

Lemma dict_back d : Forall (fun p => (exists s, key_string (fst p) = Some s /\ good_string s /\ (s = u "_type" -> snd p = VNone)) /\ comes_back (snd p)) d ->
  exists ps, all_some (map (fun p => match key_text (fst p), encode (snd p) with Some k, Some j => Some (k, j) | _, _ => None end) d) = Some ps /\
    Forall (fun p => good_string (fst p) /\ good_json (snd p)) ps /\
    all_some (map (fun p => option_map (pair (fst p)) (decode (snd p))) ps) =
      Some (flat_map (fun p => match key_string (fst p) with Some k => [(k, read_back (snd p))] | None => [] end) d) /\
    (forall x, In (u "_type", x) (flat_map (fun p => match key_string (fst p) with Some k => [(k, read_back (snd p))] | None => [] end) d) -> x = VNone).
Proof.
  induction 1 as [|[k x] d [[s [K [S T]]] [j [E [G D]]]] F [ps [Es [Gs [Ds Ts]]]]].
  - exists []. repeat split; [constructor|intros ? []].
  - exists ((s, j) :: ps). cbn [map all_some flat_map fst snd] in *. assert (K2 : key_text k = Some s) by exact K. rewrite K, K2, E, D, Es. cbn [option_map app]. rewrite Ds.
    repeat split; [constructor; [split|]; assumption|]. intros y [[= -> <-]|I]; [|exact (Ts y I)]. rewrite (T eq_refl). reflexivity.
Qed.

Lemma attrs_back (fs : list (field C A O)) (a : list (pystr * value)) : keys a = map f_name fs -> NoDup (map f_name fs) ->
  (forall f, In f fs -> good_string (f_name f)) -> Forall (fun p => comes_back (snd p)) a ->
  forall pre, NoDup (keys pre ++ map f_name fs) ->
  exists ps, all_some (map (fun f => match get (f_name f) (pre ++ map (fun p => (fst p, encode (snd p))) a) with
                                     | Some (Some j) => Some (f_name f, j) | _ => None end) fs) = Some ps /\
    keys ps = map f_name fs /\ Forall (fun p => good_string (fst p) /\ good_json (snd p)) ps /\
    all_some (map (fun p => option_map (pair (fst p)) (decode (snd p))) ps) = Some (map (fun p => (fst p, read_back (snd p))) a).
Proof.
  intros K N S F. revert fs K N S. induction F as [|[k x] a [j [E [G D]]] F IH]; intros fs K N S pre NP.
  - destruct fs; [|discriminate]. exists []. repeat split; constructor.
  - destruct fs as [|f fs]; [discriminate|]. cbn [keys map fst] in K. injection K as -> K. cbn [snd] in *.
    cbn [map] in N. inversion N as [|? ? N1 N2]; subst.
    destruct (IH fs K N2 (fun g I => S g (or_intror I)) (pre ++ [(f_name f, encode x)])) as [ps [Es [Ks [Gs Ds]]]].
    { unfold keys in *. rewrite map_app, <- app_assoc. exact NP. }
    exists ((f_name f, j) :: ps).
    assert (G1 : get (f_name f) (pre ++ (f_name f, encode x) :: map (fun p => (fst p, encode (snd p))) a) = Some (Some j)).
    { rewrite E. assert (Z : ~ In (f_name f) (keys pre)).
      { cbn [map] in NP. apply NoDup_remove_2 in NP. intros I. apply NP. apply in_or_app. left. exact I. }
      clear - Z. induction pre as [|[k v] pre IHp]; cbn [app get]; [destruct (dec (f_name f) (f_name f)); congruence|].
      cbn [keys map fst In] in Z. destruct (dec (f_name f) k) as [Ek|]; [exfalso; apply Z; left; symmetry; exact Ek|].
      apply IHp. intros I. apply Z. right. exact I. }
    cbn [map all_some fst snd]. rewrite G1. rewrite <- app_assoc in Es. cbn [app] in Es. rewrite Es, D. cbn [option_map].
    rewrite Ds. repeat split.
    + cbn [keys map fst]. f_equal. exact Ks.
    + constructor; [split; [apply S; left; reflexivity|exact G]|exact Gs].
Qed.

Lemma construct_back c (a : list (pystr * value)) : keys a = map f_name (fields c) -> NoDup (map f_name (fields c)) ->
  (forall f, In f (fields c) -> f_init f = true) -> construct fields c a = Some (VData c a).
Proof.
  intros K N Init. unfold construct.
  assert (E : forallb (fun p => existsb (fun f => eqd (f_name f) (fst p) && f_init f) (fields c)) a = true).
  { rewrite forallb_forall. intros p I. assert (I2 : In (fst p) (map f_name (fields c))) by (rewrite <- K; unfold keys; now apply in_map).
    apply in_map_iff in I2. destruct I2 as [f [Ef If]]. rewrite existsb_exists. exists f. split; [exact If|].
    cbn beta. rewrite (Init f If). rewrite Ef, eqd_refl. reflexivity. }
  rewrite E. clear E.
  assert (X : forall fs (r : list (pystr * value)), keys r = map f_name fs -> (forall f, In f fs -> f_init f = true) ->
              (forall p, In p r -> get (fst p) a = Some (snd p)) ->
              all_some (map (fun f => match (if f_init f then get (f_name f) a else None), f_default f with
                                | Some v, _ => Some [(f_name f, v)]
                                | None, Some v => Some [(f_name f, v)]
                                | None, None => if f_init f then None else Some []
                                end) fs) = Some (map (fun p => [p]) r)).
  { induction fs as [|f fs IH]; intros r Kr Ir Gr; [destruct r; [reflexivity|discriminate]|].
    destruct r as [|[k v] r]; [discriminate|]. cbn [keys map fst] in Kr. injection Kr as -> Kr. cbn [map all_some].
    rewrite (Ir f (or_introl eq_refl)). pose proof (Gr (f_name f, v) (or_introl eq_refl)) as G0. cbn [fst snd] in G0. rewrite G0.
    rewrite (IH r Kr); [reflexivity|intros g Ig; apply Ir; right; exact Ig|intros p Ip; apply Gr; right; exact Ip]. }
  rewrite (X (fields c) a K Init).
  - cbn [option_map]. do 2 f_equal. clear. induction a; cbn [map concat app]; [reflexivity|]. now rewrite IHa.
  - intros [k v] I. cbn [fst snd]. apply In_get; [rewrite K; exact N|exact I].
Qed.

Theorem value_comes_back v : loggable v -> comes_back v.
Proof.
  induction v as [|b|z|f|s|l IH|l IH|d IH|c a IH|a|o] using value_ind'; intros L.
  1-5: eexists; split; [reflexivity|split; [exact L || exact I|reflexivity]].
  - apply loggable_list in L. destruct (all_back l) as [js [E [G D]]].
    { rewrite Forall_forall in *. auto. }
    exists (JArr js). cbn [MsgCodecModel.encode MsgCodecModel.decode read_back]. rewrite E, D. split; [reflexivity|]. split; [now apply good_arr|reflexivity].
  - apply loggable_list in L. destruct (all_back l) as [js [E [G D]]].
    { rewrite Forall_forall in *. auto. }
    exists (JArr js). cbn [MsgCodecModel.encode MsgCodecModel.decode read_back]. rewrite E, D. split; [reflexivity|]. split; [now apply good_arr|reflexivity].
  - apply loggable_dict in L. destruct (dict_back d) as [ps [E [G [D T]]]].
    { rewrite Forall_forall in *. intros p I. destruct (L p I) as [L1 L2]. split; [exact L1|]. exact (IH p I L2). }
    exists (JObj ps). cbn [MsgCodecModel.encode MsgCodecModel.decode read_back]. rewrite E, D. split; [reflexivity|]. split; [now apply good_obj|].
    unfold MsgCodecModel.object_hook. fold TYPE in T.
    set (l := flat_map _ d) in *. unfold dict_of.
    destruct (get TYPE (fold_left _ l [])) as [x|] eqn:Q; [|reflexivity].
    apply get_dict_of_In in Q. destruct Q as [Q|Q]; [discriminate|]. rewrite (T x Q). reflexivity.
  - apply loggable_data in L. destruct L as [[R1 [R2 [R3 [R4 [R5 [R6 R7]]]]]] [K F]].
    destruct (attrs_back (fields c) a K R5 (fun f I => proj2 (R7 f I))) with (pre := @nil (pystr * option json)) as [ps [E [Ks [G D]]]].
    { rewrite Forall_forall in *. auto. }
    { cbn. exact R5. }
    cbn [app] in E.
    assert (NT : ~ In TYPE (keys ps)) by (rewrite Ks; exact R6).
    exists (JObj (ps ++ [(TYPE, JStr (type_str c))])). cbn [MsgCodecModel.encode MsgCodecModel.decode read_back].
    rewrite E. cbn [option_map]. rewrite put_new by exact NT. split; [reflexivity|]. split.
    { apply good_obj. apply Forall_app. split; [exact G|]. constructor; [|constructor]. split; [|exact R4]. cbn [fst]. apply good_literal. reflexivity. }
    rewrite map_app. set (rs := map (fun p => (fst p, read_back (snd p))) a) in *.
    assert (D' : all_some (map (fun p : pystr * json => option_map (pair (fst p)) (decode (snd p))) ps ++
                   map (fun p : pystr * json => option_map (pair (fst p)) (decode (snd p))) [(TYPE, JStr (type_str c))]) =
                 Some (rs ++ [(TYPE, VStr (type_str c))])).
    { revert D. generalize rs. induction (map (fun p : pystr * json => option_map (pair (fst p)) (decode (snd p))) ps) as [|[x|] t IHt]; intros r D.
      - injection D as <-. reflexivity.
      - cbn [all_some app] in *. destruct (all_some t) as [r'|]; [|discriminate]. injection D as <-. rewrite (IHt r' eq_refl). reflexivity.
      - discriminate. }
    rewrite D'. assert (KR : keys rs = map f_name (fields c)).
    { unfold rs, keys. rewrite map_map. cbn [fst]. exact K. }
    assert (ND : NoDup (keys (rs ++ [(TYPE, VStr (type_str c))]))).
    { unfold keys in *. rewrite map_app, KR. cbn [map fst]. apply NoDup_app_one; assumption. }
    rewrite dict_of_nodup by exact ND. unfold MsgCodecModel.object_hook.
    rewrite (In_get TYPE (VStr (type_str c)) _ ND) by (apply in_or_app; right; left; reflexivity).
    rewrite (proj2 (eqd_false _ _) R2), (proj2 (eqd_false _ _) R3), R1.
    assert (DL : del TYPE (rs ++ [(TYPE, VStr (type_str c))]) = rs).
    { unfold del. rewrite filter_app. cbn [filter fst]. rewrite eqd_refl. cbn [negb]. rewrite app_nil_r.
      assert (NR : ~ In TYPE (keys rs)) by (rewrite KR; exact R6). clear - NR. induction rs as [|[k x] rs IHr]; [reflexivity|].
      cbn [filter fst keys map In] in *. rewrite (proj2 (eqd_false _ _)) by (intros Ek; apply NR; left; symmetry; exact Ek). cbn [negb].
      rewrite IHr; [reflexivity|]. intros I. apply NR. right. exact I. }
    rewrite DL. apply construct_back; [exact KR|exact R5|]. intros f I. apply R7. exact I.
  - destruct L as [b [E [G [Gd F]]]]. eexists. cbn [MsgCodecModel.encode]. rewrite E. split; [reflexivity|]. split.
    + assert (GS : good_json (JArr (map JInt (shape a)))).
      { apply good_arr. apply Forall_forall. intros j I. apply in_map_iff in I. destruct I as [z [<- _]]. exact Logic.I. }
      apply good_obj. repeat (apply Forall_cons; [split; cbn [fst snd]|]); try apply Forall_nil;
        try (apply good_literal; reflexivity); assumption.
    + cbn [MsgCodecModel.decode map all_some fst snd option_map].
      assert (D : all_some (map decode (map JInt (shape a))) = Some (map VInt (shape a))).
      { clear. induction (shape a) as [|z r IHr]; [reflexivity|]. cbn [map all_some]. cbn [MsgCodecModel.decode]. rewrite IHr. reflexivity. }
      rewrite D. cbn [option_map]. rewrite dict_of_nodup.
      * unfold MsgCodecModel.object_hook. cbn. rewrite F. reflexivity.
      * cbn [keys map fst]. repeat constructor; cbn; intuition discriminate.
  - destruct L as [b [E [G F]]]. eexists. cbn [MsgCodecModel.encode]. rewrite E. split; [reflexivity|]. split.
    + apply good_obj. repeat (apply Forall_cons; [split; cbn [fst snd]|]); try apply Forall_nil;
        try (apply good_literal; reflexivity); assumption.
    + cbn [MsgCodecModel.decode map all_some fst snd option_map]. rewrite dict_of_nodup.
      * unfold MsgCodecModel.object_hook. cbn. rewrite F. reflexivity.
      * cbn [keys map fst]. repeat constructor; cbn; intuition discriminate.
Qed.

End Proofs.
