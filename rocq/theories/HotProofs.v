(** Proofs for C101. *)
From Coq Require Import String Ascii.
From Coq Require Import List Arith NArith ZArith QArith Lqa Bool Lia Permutation Sorted.
From Verif Require Import CodecModel AddressModel AddressProps CmdModel CmdProofs PerfModel PerfSpec PerfProofs HotModel HotSpec.
Import ListNotations.
Local Open Scope nat_scope.

(** ** Names *)

Lemma leb_total a : forall b, str_leb a b = true \/ str_leb b a = true.
Proof.
  induction a as [|x a IH]; intros [|y b]; cbn; auto. rewrite (N.eqb_sym y x). destruct (N.eqb_spec x y) as [->|N]; [apply IH|].
  rewrite !N.ltb_lt. lia.
Qed.
Lemma leb_trans a : forall b c, str_leb a b = true -> str_leb b c = true -> str_leb a c = true.
Proof.
  induction a as [|x a IH]; intros [|y b] [|z c]; cbn; auto; try discriminate.
  destruct (N.eqb_spec x y) as [->|N1], (N.eqb_spec y z) as [->|N2]; rewrite ?N.eqb_refl.
  - apply IH.
  - destruct (N.eqb_spec y z); [contradiction|auto].
  - destruct (N.eqb_spec x z); [contradiction|auto].
  - rewrite !N.ltb_lt. intros H K. destruct (N.eqb_spec x z) as [->|_]; [lia|]. apply N.ltb_lt. lia.
Qed.
Lemma leb_anti a : forall b, str_leb a b = true -> str_leb b a = true -> a = b.
Proof.
  induction a as [|x a IH]; intros [|y b]; cbn; auto; try discriminate. rewrite (N.eqb_sym y x). destruct (N.eqb_spec x y) as [->|N].
  - intros H K. f_equal. now apply IH.
  - rewrite !N.ltb_lt. lia.
Qed.
Lemma leb_before a : forall b, str_leb a b = true ->
  a = b \/ exists p x y r s, a = p ++ r /\ b = p ++ s /\ s = y :: tl s /\ (r = [] \/ (r = x :: tl r /\ (x < y)%N)).
Proof.
  induction a as [|x a IH]; intros [|y b]; cbn; intros H; [auto| |discriminate|].
  - right. exists [], 0%N, y, [], (y :: b). repeat split; auto.
  - destruct (N.eqb_spec x y) as [->|N].
    + destruct (IH b H) as [->|[p [u [v [r [s [-> [-> [E K]]]]]]]]]; [auto|]. right. exists (y :: p), u, v, r, s. repeat split; auto.
    + apply N.ltb_lt in H. right. exists [], x, y, (x :: a), (y :: b). repeat split; auto.
Qed.

Lemma by_total c d : by_id c d = true \/ by_id d c = true.
Proof. apply leb_total. Qed.
Lemma by_trans c d e : by_id c d = true -> by_id d e = true -> by_id c e = true.
Proof. apply leb_trans. Qed.

Definition fine (c : case) : Prop := In (api c) [text "async"; text "sync"] /\ In (transport c) [text "local"; text "shm"; text "tcp"].

Lemma no_slash z : ~ In 47%N (str_int z).
Proof. intros I. apply str_int_chars in I as [D|D]; [unfold digit_char in D; lia|discriminate]. Qed.

Lemma cut (a b r s : pystr) : ~ In 47%N a -> ~ In 47%N b -> a ++ 47%N :: r = b ++ 47%N :: s -> a = b /\ r = s.
Proof.
  revert b. induction a as [|x a IH]; intros [|y b] N M E; cbn in E.
  - injection E as ->. auto.
  - injection E as <- _. destruct M. now left.
  - injection E as -> _. destruct N. now left.
  - injection E as -> E. destruct (IH b) as [-> ->]; auto; intros I; [apply N|apply M]; now right.
Qed.

Lemma fine_no_slash c : fine c -> ~ In 47%N (api c) /\ ~ In 47%N (transport c).
Proof.
  intros [A T]. split; intros I.
  - destruct A as [E|[E|[]]]; rewrite <- E in I; vm_compute in I; intuition discriminate.
  - destruct T as [E|[E|[E|[]]]]; rewrite <- E in I; vm_compute in I; intuition discriminate.
Qed.

Lemma int_back z z' : str_int z = str_int z' -> z = z'.
Proof. intros E. pose proof (int_of_str_int z) as A. rewrite E, int_of_str_int in A. congruence. Qed.

Lemma id_inj c d : fine c -> fine d -> case_id c = case_id d -> c = d.
Proof.
  intros C D E. destruct (fine_no_slash c C) as [A1 T1], (fine_no_slash d D) as [A2 T2].
  destruct c as [a t p b], d as [a' t' p' b']. unfold case_id in E. cbn [api transport payload buffers] in *.
  change (text "/") with [47%N] in E. change (text "/payload=") with (47%N :: text "payload=") in E. change (text "/buffers=") with (47%N :: text "buffers=") in E.
  cbn [app] in E. apply cut in E as [-> E]; auto. apply cut in E as [-> E]; auto. apply app_inv_head in E.
  apply cut in E as [P E]; try apply no_slash. apply app_inv_head in E. apply int_back in P, E. congruence.
Qed.

(** ** The cases *)

Lemma among_in l s : among l s = true <-> In s l.
Proof.
  unfold among. rewrite existsb_exists. split.
  - intros [x [I E]]. apply str_eqb_eq in E. now subst.
  - intros I. exists s. split; [exact I|now apply str_eqb_eq].
Qed.

Definition listed (apis transports : list pystr) (sizes : list Z) (nb : Z) : list case :=
  flat_map (fun a => flat_map (fun t => flat_map (fun p =>
       if among [text "async"; text "sync"] a && among [text "local"; text "shm"; text "tcp"] t then [mkCase a t p nb] else [])
       sizes) transports) apis.

Lemma in_listed apis transports sizes nb c : In c (listed apis transports sizes nb) <-> asked apis transports sizes nb c.
Proof.
  unfold listed, asked. rewrite in_flat_map. split.
  - intros [a [Ia K]]. apply in_flat_map in K as [t [It K]]. apply in_flat_map in K as [p [Ip K]].
    destruct (among _ a && among _ t) eqn:E; [|destruct K]. apply andb_true_iff in E as [E1 E2]. apply among_in in E1, E2.
    destruct K as [<-|[]]. cbn [api transport payload buffers]. repeat (split; [assumption || reflexivity|]). assumption.
  - destruct c as [a t p b]. cbn [api transport payload buffers]. intros [Ia [It [Ip [-> [A T]]]]]. exists a. split; [exact Ia|].
    apply in_flat_map. exists t. split; [exact It|]. apply in_flat_map. exists p. split; [exact Ip|].
    apply among_in in A, T. rewrite A, T. now left.
Qed.

Lemma nodup_flat {A B} (f : A -> list B) (key : B -> A) l : NoDup l -> (forall a, In a l -> NoDup (f a)) -> (forall a b, In b (f a) -> key b = a) -> NoDup (flat_map f l).
Proof.
  induction 1 as [|a l N Nd IH]; intros H K; cbn; [constructor|].
  assert (D : forall b, In b (f a) -> ~ In b (flat_map f l)).
  { intros b I J. apply in_flat_map in J as [a' [I' J]]. apply K in I, J. congruence. }
  assert (F : NoDup (f a)) by (apply H; now left). assert (R : NoDup (flat_map f l)) by (apply IH; auto; intros; apply H; now right).
  revert F D. generalize (f a) as u. clear -R. induction u as [|x u IH]; intros F D; [exact R|]. cbn. inversion F as [|? ? F1 F2]; subst. constructor.
  - rewrite in_app_iff. intros [I|I]; [contradiction|]. apply (D x); [now left|exact I].
  - apply IH; [exact F2|]. intros b I. apply D. now right.
Qed.

Lemma nodup_listed apis transports sizes nb : NoDup apis -> NoDup transports -> NoDup sizes -> NoDup (listed apis transports sizes nb).
Proof.
  intros A T P. unfold listed. apply nodup_flat with (key := api); [exact A| |].
  - intros a _. apply nodup_flat with (key := transport); [exact T| |].
    + intros t _. apply nodup_flat with (key := payload); [exact P| |].
      * intros p _. destruct (among _ a && among _ t); repeat constructor. intros [].
      * intros p c I. destruct (among _ a && among _ t); [destruct I as [<-|[]]; reflexivity|destruct I].
    + intros t c I. apply in_flat_map in I as [p [_ I]]. destruct (among _ a && among _ t); [destruct I as [<-|[]]; reflexivity|destruct I].
  - intros a c I. apply in_flat_map in I as [t [_ I]]. apply in_flat_map in I as [p [_ I]].
    destruct (among _ a && among _ t); [destruct I as [<-|[]]; reflexivity|destruct I].
Qed.

Lemma build_in apis transports sizes nb c : In c (build_cases apis transports sizes nb) <-> asked apis transports sizes nb c.
Proof.
  rewrite <- in_listed. unfold build_cases. fold (listed apis transports sizes nb). split; apply Permutation_in; [apply Permutation_sym|]; apply sort_perm.
Qed.
Lemma build_nodup apis transports sizes nb : NoDup apis -> NoDup transports -> NoDup sizes -> NoDup (build_cases apis transports sizes nb).
Proof. intros A T P. eapply Permutation_NoDup; [apply sort_perm|now apply nodup_listed]. Qed.
Lemma build_sorted apis transports sizes nb : StronglySorted (leP by_id) (build_cases apis transports sizes nb).
Proof. apply sort_sorted; [apply by_total|apply by_trans]. Qed.

Lemma sorted_before l : StronglySorted (leP by_id) l -> StronglySorted before l.
Proof. apply sorted_impl. intros x y H. apply leb_before in H. exact H. Qed.

Lemma sorted_unique (l : list case) : forall l', Forall fine l -> Permutation l l' -> StronglySorted (leP by_id) l -> StronglySorted (leP by_id) l' -> l = l'.
Proof.
  induction l as [|x l IH]; intros [|y l'] F P S S'; [reflexivity|apply Permutation_nil in P; discriminate|apply Permutation_sym, Permutation_nil in P; discriminate|].
  inversion F as [|? ? Fx Fl]; inversion S as [|? ? S1 A1]; inversion S' as [|? ? S2 A2]; subst.
  assert (E : x = y).
  { assert (Iy : In y (x :: l)) by (apply (Permutation_in _ (Permutation_sym P)); now left).
    assert (Ix : In x (y :: l')) by (apply (Permutation_in _ P); now left).
    destruct Iy as [->|Iy]; [reflexivity|]. destruct Ix as [->|Ix]; [reflexivity|].
    rewrite Forall_forall in A1, A2, Fl. specialize (A1 y Iy). specialize (A2 x Ix). apply id_inj; [exact Fx|now apply Fl|]. now apply leb_anti. }
  subst y. f_equal. apply IH; auto. now apply Permutation_cons_inv in P.
Qed.

(** ** The suite *)

Lemma rounds_one n : one_by_one (rounds n) n.
Proof. unfold one_by_one. induction n as [|n IH]; cbn; [reflexivity|]. now rewrite IH. Qed.

Lemma samples_app c a b : samples_of c (a ++ b) = samples_of c a + samples_of c b.
Proof. unfold samples_of. now rewrite filter_app, app_length. Qed.

Lemma take_ev w c ops n : forall k ev k' r, take w c ops n k = (ev, k', r) ->
  Forall (fun e => e = Sampled c ops) ev /\ (ev <> [] -> validated (supports w) c = true) /\
  (forall l, r = Some l -> length l = n /\ ev = repeat (Sampled c ops) n).
Proof.
  induction n as [|n IH]; intros k ev k' r H; cbn [take] in H.
  - injection H as <- <- <-. split; [constructor|]. split; [congruence|]. intros l [= <-]. auto.
  - destruct (validated (supports w) c) eqn:V; cbn [negb] in H.
    2:{ injection H as <- <- <-. split; [constructor|]. split; [congruence|]. discriminate. }
    destruct (elapsed w k c) as [t|].
    2:{ injection H as <- <- <-. split; [repeat constructor|]. split; [auto|]. discriminate. }
    destruct (take w c ops n (S k)) as [[ev1 k1] r1] eqn:E. injection H as <- <- <-. destruct (IH _ _ _ _ E) as [A [_ B]].
    split; [constructor; auto|]. split; [auto|]. intros l K. destruct r1 as [l1|]; [|discriminate]. injection K as <-.
    destruct (B l1 eq_refl) as [L ->]. cbn. auto.
Qed.

Definition measured (w : world) (count warmup : Z) (e : event) : Prop := exists c, e = Sampled c (roundtrip count warmup) /\ validated (supports w) c = true.

Lemma run_ev w count warmup samples cs : forall k ev r, run_cases w count warmup samples cs k = (ev, r) ->
  Forall (measured w count warmup) ev /\
  (forall rs, r = Some rs -> map of_case rs = cs /\
     (forall x, In x rs -> length (taken x) = Z.to_nat samples /\ summarize (taken x) count = Some (figures x)) /\
     ev = flat_map (fun c => repeat (Sampled c (roundtrip count warmup)) (Z.to_nat samples)) cs).
Proof.
  induction cs as [|c cs IH]; intros k ev r H; cbn [run_cases] in H.
  - injection H as <- <-. split; [constructor|]. intros rs [= <-]. split; [reflexivity|]. split; [intros x []|reflexivity].
  - unfold run_case in H. destruct (take w c (roundtrip count warmup) (Z.to_nat samples) k) as [[ev1 k1] r1] eqn:E.
    destruct (take_ev _ _ _ _ _ _ _ _ E) as [A [V B]].
    assert (M : Forall (measured w count warmup) ev1).
    { apply Forall_forall. intros e I. exists c. rewrite Forall_forall in A. split; [now apply A|]. apply V. intros ->. destruct I. }
    destruct r1 as [l|]; [|injection H as <- <-; split; [exact M|discriminate]].
    destruct (summarize l count) as [s|] eqn:S; cbn [option_map] in H; [|injection H as <- <-; split; [exact M|discriminate]].
    destruct (run_cases w count warmup samples cs k1) as [ev2 r2] eqn:E2. injection H as <- <-. destruct (IH _ _ _ E2) as [M2 B2].
    split; [apply Forall_app; auto|]. intros rs K. destruct r2 as [rs2|]; [|discriminate]. injection K as <-.
    destruct (B2 rs2 eq_refl) as [C [D ->]]. destruct (B l eq_refl) as [L ->]. split; [cbn; now rewrite C|]. split; [|reflexivity].
    intros x [<-|I]; [cbn; auto|now apply D].
Qed.

Lemma samples_repeat c d ops n : fine c -> fine d -> samples_of c (repeat (Sampled d ops) n) = if str_eqb (case_id c) (case_id d) then n else 0.
Proof.
  intros _ _. unfold samples_of. induction n as [|n IH]; cbn; [now destruct (str_eqb _ _)|]. destruct (str_eqb (case_id c) (case_id d)); cbn; now rewrite IH.
Qed.

Lemma samples_flat c ops n cs : fine c -> Forall fine cs -> NoDup cs -> In c cs -> samples_of c (flat_map (fun c => repeat (Sampled c ops) n) cs) = n.
Proof.
  intros Fc. assert (Z : forall l, Forall fine l -> ~ In c l -> samples_of c (flat_map (fun c => repeat (Sampled c ops) n) l) = 0).
  { induction 1 as [|d l Fd F IH]; intros N; [reflexivity|]. cbn [flat_map]. rewrite samples_app, samples_repeat, IH by (auto; intros I; apply N; now right).
    destruct (str_eqb (case_id c) (case_id d)) eqn:E; [|reflexivity]. apply str_eqb_eq in E. destruct N. left. symmetry. now apply id_inj. }
  induction 1 as [|d cs Fd F IH]; intros N I; [destruct I|]. inversion N as [|? ? N1 N2]; subst. cbn [flat_map]. rewrite samples_app, samples_repeat by auto.
  destruct (str_eqb (case_id c) (case_id d)) eqn:E.
  - apply str_eqb_eq in E. assert (c = d) by now apply id_inj. subst d. rewrite Z by auto. lia.
  - destruct I as [->|I]; [|now rewrite IH]. assert (str_eqb (case_id c) (case_id c) = true) by now apply str_eqb_eq. congruence.
Qed.

Lemma suite_cases w count warmup samples apis transports sizes nb quiet ev rs : (forall l, Permutation l (shuffle w l)) ->
  suite w count warmup samples apis transports sizes nb quiet = (ev, Some rs) ->
  map of_case rs = build_cases apis transports sizes nb /\
  (forall x, In x rs -> length (taken x) = Z.to_nat samples /\ summarize (taken x) count = Some (figures x)) /\
  (NoDup apis -> NoDup transports -> NoDup sizes -> forall c, asked apis transports sizes nb c -> samples_of c ev = Z.to_nat samples).
Proof.
  intros Sh H. unfold suite in H. destruct (server_starts w); cbn [negb] in H; [|discriminate].
  set (B := build_cases apis transports sizes nb) in *.
  assert (FB : Forall fine B). { apply Forall_forall. intros c I. apply build_in in I. unfold asked in I. unfold fine. tauto. }
  destruct (run_cases w count warmup samples (shuffle w B) 0) as [ev1 r1] eqn:E. destruct (run_ev _ _ _ _ _ _ _ _ E) as [M K].
  destruct r1 as [rs1|]; [|discriminate]. cbn [option_map] in H. destruct (K rs1 eq_refl) as [C [D Ev]].
  assert (Ers : rs = sort (fun x y => by_id (of_case x) (of_case y)) rs1) by congruence.
  assert (Eev : ev = ServerStarted :: (if quiet then Level 30 :: ev1 ++ [Level (level w)] else ev1) ++ [ServerStopped]) by congruence. clear H.
  assert (P : Permutation rs1 rs) by (rewrite Ers; apply sort_perm).
  split; [|split].
  - symmetry. apply sorted_unique; [exact FB| |apply build_sorted|].
    + etransitivity; [apply Sh|]. rewrite <- C. now apply Permutation_map.
    + rewrite Ers. pose proof (sort_sorted (fun x y : result => by_id (of_case x) (of_case y)) ltac:(intros; apply by_total) ltac:(intros x y z; apply by_trans) rs1) as S.
      clear -S. induction S as [|x l S IH F]; cbn; [constructor|]. constructor; [exact IH|]. apply Forall_forall. intros c I. apply in_map_iff in I as [y [<- I]].
      rewrite Forall_forall in F. exact (F y I).
  - intros x I. apply D. apply (Permutation_in _ (Permutation_sym P) I).
  - intros NA NT NS c A. assert (Fc : fine c) by (unfold asked in A; unfold fine; tauto).
    assert (S1 : samples_of c ev1 = Z.to_nat samples).
    { rewrite Ev. apply samples_flat; [exact Fc| | |].
      - eapply Permutation_Forall; [apply Sh|exact FB].
      - eapply Permutation_NoDup; [apply Sh|now apply build_nodup].
      - eapply Permutation_in; [apply Sh|]. now apply build_in. }
    rewrite Eev. change (ServerStarted :: ?l) with ([ServerStarted] ++ l). rewrite !samples_app.
    assert (Q : samples_of c (if quiet then Level 30 :: ev1 ++ [Level (level w)] else ev1) = Z.to_nat samples).
    { destruct quiet; [|exact S1]. change (Level 30 :: ?l) with ([Level 30] ++ l). rewrite !samples_app, S1. cbn. lia. }
    rewrite Q. cbn. lia.
Qed.

Lemma level_samples w count warmup l : Forall (measured w count warmup) l -> forall n r, level_after n (l ++ r) = level_after n r.
Proof. induction 1 as [|e l [c [-> _]] F IH]; intros n r; cbn; auto. Qed.

Lemma suite_clean w count warmup samples apis transports sizes nb quiet ev r :
  suite w count warmup samples apis transports sizes nb quiet = (ev, r) ->
  (ev = [] /\ r = None /\ server_starts w = false) \/
  (exists mid, ev = ServerStarted :: mid ++ [ServerStopped] /\ ~ In ServerStarted mid /\ ~ In ServerStopped mid /\ level_after (level w) ev = level w /\
   (forall a c ops b, ev = a ++ Sampled c ops :: b -> level_after (level w) a = if quiet then 30%Z else level w)).
Proof.
  unfold suite. destruct (server_starts w); cbn [negb]; [|intros [= <- <-]; auto].
  destruct (run_cases w count warmup samples (shuffle w (build_cases apis transports sizes nb)) 0) as [ev1 r1] eqn:E. destruct (run_ev _ _ _ _ _ _ _ _ E) as [M _]. clear E.
  intros H. right. assert (Eev : ev = ServerStarted :: (if quiet then Level 30 :: ev1 ++ [Level (level w)] else ev1) ++ [ServerStopped]) by congruence. clear H.
  assert (N : forall e, In e ev1 -> exists c, e = Sampled c (roundtrip count warmup)).
  { intros e I. rewrite Forall_forall in M. destruct (M e I) as [c [K _]]. eauto. }
  exists (if quiet then Level 30 :: ev1 ++ [Level (level w)] else ev1). split; [exact Eev|].
  split; [|split; [|split]].
  - intros I. destruct quiet; [destruct I as [K|I]; [discriminate|apply in_app_or in I as [I|[K|[]]]; [|discriminate]]|]; apply N in I as [c K]; discriminate.
  - intros I. destruct quiet; [destruct I as [K|I]; [discriminate|apply in_app_or in I as [I|[K|[]]]; [|discriminate]]|]; apply N in I as [c K]; discriminate.
  - rewrite Eev. destruct quiet; cbn [level_after app]; [rewrite <- app_assoc|]; rewrite (level_samples _ _ _ _ M); reflexivity.
  - intros a c ops b K. rewrite Eev in K. clear Eev. destruct a as [|e a]; [discriminate|]. injection K as <- K. cbn [level_after].
    assert (G : forall n (tail : list event) a b, (forall c ops, ~ In (Sampled c ops) tail) -> ev1 ++ tail = a ++ Sampled c ops :: b -> level_after n a = n).
    { intros n tail. clear K. induction M as [|e l [d [-> _]] M' IH]; intros a' b' T K.
      - cbn in K. destruct (T c ops). rewrite K. apply in_or_app. right. now left.
      - destruct a' as [|e a']; [reflexivity|]. injection K as <- K. cbn. eapply IH; [intros e I; apply N; now right|exact T|exact K]. }
    destruct quiet.
    + destruct a as [|e a]; [discriminate|]. cbn [app] in K. injection K as <- K. cbn [level_after]. rewrite <- app_assoc in K. eapply G; [|exact K].
      intros c' o [X|[X|[]]]; discriminate.
    + eapply G; [|exact K]. intros c' o [X|[]]; discriminate.
Qed.

Lemma suite_valid w count warmup samples apis transports sizes nb quiet ev r c ops :
  suite w count warmup samples apis transports sizes nb quiet = (ev, r) -> In (Sampled c ops) ev ->
  ops = roundtrip count warmup /\ (transport c = text "local" \/ supports w = true).
Proof.
  unfold suite. destruct (server_starts w); cbn [negb]; [|intros [= <- <-] []].
  destruct (run_cases w count warmup samples (shuffle w (build_cases apis transports sizes nb)) 0) as [ev1 r1] eqn:E. destruct (run_ev _ _ _ _ _ _ _ _ E) as [M _]. clear E.
  intros H I. assert (Eev : ev = ServerStarted :: (if quiet then Level 30 :: ev1 ++ [Level (level w)] else ev1) ++ [ServerStopped]) by congruence. clear H. subst ev.
  assert (J : In (Sampled c ops) ev1).
  { destruct I as [K|I]; [discriminate|]. apply in_app_or in I as [I|[K|[]]]; [|discriminate]. destruct quiet; [|exact I].
    destruct I as [K|I]; [discriminate|]. apply in_app_or in I as [I|[K|[]]]; [exact I|discriminate]. }
  rewrite Forall_forall in M. destruct (M _ J) as [d [K V]]. injection K as <- ->. split; [reflexivity|].
  unfold validated in V. apply orb_true_iff in V as [V|V]; [left; now apply str_eqb_eq|auto].
Qed.

(** ** Figures *)

Lemma least_spec l : forall a, (least a l = a \/ In (least a l) l) /\ (least a l <= a)%Q /\ forall x, In x l -> (least a l <= x)%Q.
Proof.
  induction l as [|x l IH]; intros a; cbn [least]; [split; [now left|]; split; [apply Qle_refl|intros x []]|].
  destruct (Qle_bool a x) eqn:E.
  - apply Qle_bool_iff in E. destruct (IH a) as [A [B C]]. split; [destruct A as [A|A]; [left|right; right]; auto|]. split; [exact B|].
    intros y [<-|I]; [eapply Qle_trans; eassumption|auto].
  - assert (K : (x <= a)%Q) by (apply Qlt_le_weak, Qnot_le_lt; intros K; apply Qle_bool_iff in K; congruence).
    destruct (IH x) as [A [B C]]. split; [right; destruct A as [A|A]; [left; now rewrite A|now right]|]. split; [eapply Qle_trans; eassumption|].
    intros y [<-|I]; auto.
Qed.
Lemma greatest_spec l : forall a, (greatest a l = a \/ In (greatest a l) l) /\ (a <= greatest a l)%Q /\ forall x, In x l -> (x <= greatest a l)%Q.
Proof.
  induction l as [|x l IH]; intros a; cbn [greatest]; [split; [now left|]; split; [apply Qle_refl|intros x []]|].
  destruct (Qle_bool x a) eqn:E.
  - apply Qle_bool_iff in E. destruct (IH a) as [A [B C]]. split; [destruct A as [A|A]; [left|right; right]; auto|]. split; [exact B|].
    intros y [<-|I]; [eapply Qle_trans; eassumption|auto].
  - assert (K : (a <= x)%Q) by (apply Qlt_le_weak, Qnot_le_lt; intros K; apply Qle_bool_iff in K; congruence).
    destruct (IH x) as [A [B C]]. split; [right; destruct A as [A|A]; [left; now rewrite A|now right]|]. split; [eapply Qle_trans; eassumption|].
    intros y [<-|I]; auto.
Qed.

Lemma insertq_map f x l : (forall a b, Qle_bool (f a) (f b) = Qle_bool a b) -> insert Qle_bool (f x) (map f l) = map f (insert Qle_bool x l).
Proof. intros H. induction l as [|y l IH]; cbn; [reflexivity|]. rewrite H. destruct (Qle_bool x y); cbn; now rewrite ?IH. Qed.
Lemma sortq_map f l : (forall a b, Qle_bool (f a) (f b) = Qle_bool a b) -> sort Qle_bool (map f l) = map f (sort Qle_bool l).
Proof. intros H. unfold sort. induction l as [|x l IH]; cbn; [reflexivity|]. rewrite IH. now apply insertq_map. Qed.

Lemma median_map f k l : (forall s, f s == s * k)%Q -> (0 < k)%Q -> l <> [] -> (median (map f l) == median l * k)%Q.
Proof.
  intros Hf K N.
  assert (M : forall a b, Qle_bool (f a) (f b) = Qle_bool a b).
  { intros a b. apply eq_true_iff_eq. rewrite !Qle_bool_iff, !Hf. split; intros H; [eapply Qmult_le_r; eassumption|now apply Qmult_le_r]. }
  unfold median. rewrite sortq_map, map_length by exact M. assert (L : 0 < length l) by (destruct l; [contradiction|cbn; lia]).
  assert (B : forall i, i < length l -> nth i (map f (sort Qle_bool l)) 0%Q = f (nth i (sort Qle_bool l) 0%Q)).
  { intros i I. rewrite (nth_indep _ 0%Q (f 0%Q)) by (rewrite map_length, sort_length; exact I). apply map_nth. }
  pose proof (Nat.div_mod (length l) 2 ltac:(lia)) as D. pose proof (Nat.mod_upper_bound (length l) 2 ltac:(lia)) as U.
  destruct (Nat.even (length l)); rewrite !B by lia; rewrite ?Hf; field.
Qed.

Lemma mean_map f k l : (forall s, f s == s * k)%Q -> l <> [] -> (mean (map f l) == mean l * k)%Q.
Proof.
  intros Hf N. pose proof (mean_is l N) as [_ A]. assert (N' : map f l <> []) by (destruct l; [contradiction|discriminate]).
  pose proof (mean_is _ N') as [_ B]. rewrite map_length in B. assert (T : (qtotal (map f l) == qtotal l * k)%Q).
  { clear -Hf. induction l as [|x l IH]; cbn; [ring|]. unfold qtotal in IH. rewrite IH, Hf. ring. }
  rewrite T, <- A in B. assert (P : ~ (inject_Z (Z.of_nat (length l)) == 0)%Q) by (apply inject_pos; destruct l; [contradiction|cbn; lia]).
  apply (Qmult_inj_r _ _ _ P). rewrite B. ring.
Qed.

Lemma filterP (f : Q -> bool) l l' : Permutation l l' -> length (filter f l) = length (filter f l').
Proof. induction 1 as [|x l l' P IH|x y l|]; cbn; [reflexivity|destruct (f x); cbn; now rewrite IH|destruct (f x), (f y); reflexivity|congruence]. Qed.
Lemma countP (f : Q -> bool) l part rest : Permutation l (part ++ rest) -> (forall x, In x part -> f x = true) -> length part <= length (filter f l).
Proof.
  intros P H. rewrite (filterP f _ _ P), filter_app, app_length. assert (E : filter f part = part).
  { clear P. induction part as [|x part IH]; cbn; [reflexivity|]. rewrite H by now left. f_equal. apply IH. intros y I. apply H. now right. }
  rewrite E. lia.
Qed.
Lemma both (f g : Q -> bool) l : length l < length (filter f l) + length (filter g l) -> exists x, In x l /\ f x = true /\ g x = true.
Proof.
  induction l as [|x l IH]; cbn; [lia|]. intros H. destruct (f x) eqn:Fx, (g x) eqn:Gx; cbn in H.
  - exists x. auto.
  - destruct IH as [y [I K]]; [lia|eauto].
  - destruct IH as [y [I K]]; [lia|eauto].
  - destruct IH as [y [I K]]; [lia|eauto].
Qed.

Lemma halves_le v u l : Nat.even (length l) = false -> halves Qle v l -> halves Qle u l -> (u <= v)%Q.
Proof.
  intros O [b [_ [B [_ [[r1 P1] [_ [L1 _]]]]]]] [_ [a [_ [A [_ [[r2 P2] [_ L2]]]]]]].
  pose proof (odd_half _ O) as H.
  destruct (both (fun x => Qle_bool x v) (fun x => Qle_bool u x) l) as [x [_ [K1 K2]]].
  - pose proof (countP (fun x => Qle_bool x v) l b r1 P1 ltac:(intros x I; apply Qle_bool_iff; auto)).
    pose proof (countP (fun x => Qle_bool u x) l a r2 P2 ltac:(intros x I; apply Qle_bool_iff; auto)). lia.
  - apply Qle_bool_iff in K1, K2. eapply Qle_trans; eassumption.
Qed.

Lemma halves_some v l : l <> [] -> halves Qle v l -> (exists x, In x l /\ (x <= v)%Q) /\ (exists x, In x l /\ (v <= x)%Q).
Proof.
  intros N [b [a [B [A [[r1 P1] [[r2 P2] [L1 L2]]]]]]]. assert (0 < length l) by (destruct l; [contradiction|cbn; lia]).
  split; [destruct b as [|x b]; [cbn in L1; lia|]; exists x; split; [apply (Permutation_in _ (Permutation_sym P1)); now left|apply B; now left]
         |destruct a as [|x a]; [cbn in L2; lia|]; exists x; split; [apply (Permutation_in _ (Permutation_sym P2)); now left|apply A; now left]].
Qed.

Lemma div_anti k x y : (0 < k)%Q -> (0 < x)%Q -> (x <= y)%Q -> (k / y <= k / x)%Q.
Proof.
  intros K X Y. assert (Yp : (0 < y)%Q) by (eapply Qlt_le_trans; eassumption).
  apply Qle_shift_div_l; [exact X|]. setoid_replace (k / y * x)%Q with (k * x / y)%Q by (field; intros E; rewrite E in Yp; discriminate).
  apply Qle_shift_div_r; [exact Yp|]. rewrite !(Qmult_comm k). apply Qmult_le_compat_r; [exact Y|now apply Qlt_le_weak].
Qed.

Lemma rates_median k l : (0 < k)%Q -> l <> [] -> (forall x, In x l -> (0 < x)%Q) -> Nat.even (length l) = false -> (median (map (fun s => k / s) l) * median l == k)%Q.
Proof.
  intros K N P O. pose proof (median_halves l N) as H. set (v := median l) in *. clearbody v.
  assert (V : (0 < v)%Q). { destruct (halves_some v l N H) as [[x [I L]] _]. eapply Qlt_le_trans; [exact (P x I)|exact L]. }
  assert (N' : map (fun s => (k / s)%Q) l <> []) by (destruct l; [contradiction|discriminate]).
  pose proof (median_halves _ N') as H'. set (u := median _) in *. clearbody u.
  assert (G : halves Qle (k / v)%Q (map (fun s => (k / s)%Q) l)).
  { destruct H as [b [a [B [A [[r1 P1] [[r2 P2] [L1 L2]]]]]]]. exists (map (fun s => (k / s)%Q) a), (map (fun s => (k / s)%Q) b).
    rewrite !map_length. split; [|split; [|split; [|split]]].
    - intros y I. apply in_map_iff in I as [x [<- I]]. apply div_anti; auto.
    - intros y I. apply in_map_iff in I as [x [<- I]]. apply div_anti; auto. apply P. apply (Permutation_in _ (Permutation_sym P1)), in_or_app. now left.
    - exists (map (fun s => (k / s)%Q) r2). rewrite <- map_app. now apply Permutation_map.
    - exists (map (fun s => (k / s)%Q) r1). rewrite <- map_app. now apply Permutation_map.
    - auto. }
  assert (O' : Nat.even (length (map (fun s => (k / s)%Q) l)) = false) by now rewrite map_length.
  assert (E : (u == k / v)%Q) by (apply Qle_antisym; eapply halves_le; eassumption).
  rewrite E. field. intros Z. rewrite Z in V. discriminate.
Qed.

Lemma mean_between l lo hi : l <> [] -> (forall x, In x l -> (lo <= x)%Q /\ (x <= hi)%Q) -> (lo <= mean l)%Q /\ (mean l <= hi)%Q.
Proof.
  intros N H. destruct (mean_is l N) as [_ A]. set (m := mean l) in *. clearbody m.
  assert (P : (0 < inject_Z (Z.of_nat (length l)))%Q) by (unfold Qlt; cbn; destruct l; [contradiction|cbn; lia]).
  assert (T : (lo * inject_Z (Z.of_nat (length l)) <= qtotal l)%Q /\ (qtotal l <= hi * inject_Z (Z.of_nat (length l)))%Q).
  { clear -H. induction l as [|x l IH].
    - change (inject_Z (Z.of_nat (length (@nil Q)))) with 0%Q. rewrite !Qmult_0_r. split; apply Qle_refl.
    - destruct (H x (or_introl eq_refl)) as [H1 H2]. destruct IH as [I1 I2]; [intros y I; apply H; now right|].
      replace (Z.of_nat (length (x :: l))) with (Z.of_nat (length l) + 1)%Z by (cbn [length]; lia). rewrite inject_Z_plus. change (qtotal (x :: l)) with (x + qtotal l)%Q.
      set (n := inject_Z (Z.of_nat (length l))) in *. set (t := qtotal l) in *. clearbody n t. change (inject_Z 1) with 1%Q. split; lra. }
  rewrite <- A in T. destruct T as [T1 T2]. split; eapply Qmult_le_r; try exact P; assumption.
Qed.

Lemma summarized l count : (0 < count)%Z -> l <> [] -> (forall x, In x l -> (0 < x)%Q) -> exists s, summarize l count = Some s /\
  n_samples s = length l /\ is_median (sec_median s) l /\ is_mean (sec_mean s) l /\
  (In (sec_min s) l /\ forall x, In x l -> (sec_min s <= x)%Q) /\ (In (sec_max s) l /\ forall x, In x l -> (x <= sec_max s)%Q) /\
  (sec_min s <= sec_median s <= sec_max s)%Q /\ (sec_min s <= sec_mean s <= sec_max s)%Q /\
  (us_median s == sec_median s / inject_Z count * 1000000)%Q /\ (us_mean s == sec_mean s / inject_Z count * 1000000)%Q /\
  (Nat.odd (length l) = true -> (rate_median s * sec_median s == inject_Z count)%Q) /\ is_mean (rate_mean s) (map (fun x => inject_Z count / x)%Q l).
Proof.
  intros C N P. destruct l as [|a r]; [contradiction|]. unfold summarize.
  replace (Z.eqb count 0) with false by (symmetry; apply Z.eqb_neq; lia).
  replace (existsb (fun s => Qeq_bool s 0) (a :: r)) with false.
  2:{ symmetry. apply not_true_iff_false. intros E. apply existsb_exists in E as [x [I E]]. apply Qeq_bool_iff in E. specialize (P x I). rewrite E in P. discriminate. }
  cbn [orb]. eexists. split; [reflexivity|]. cbn [n_samples sec_median sec_mean sec_min sec_max us_median us_mean rate_median rate_mean].
  assert (Cq : (0 < inject_Z count)%Q) by (unfold Qlt; cbn; lia).
  assert (Cn : ~ (inject_Z count == 0)%Q) by (intros E; rewrite E in Cq; discriminate).
  destruct (least_spec r a) as [A1 [A2 A3]], (greatest_spec r a) as [B1 [B2 B3]].
  assert (Mi : In (least a r) (a :: r) /\ forall x, In x (a :: r) -> (least a r <= x)%Q) by (split; [destruct A1; [left|right]; auto|intros x [<-|I]; auto]).
  assert (Ma : In (greatest a r) (a :: r) /\ forall x, In x (a :: r) -> (x <= greatest a r)%Q) by (split; [destruct B1; [left|right]; auto|intros x [<-|I]; auto]).
  split; [reflexivity|]. split; [now apply median_is|]. split; [now apply mean_is|]. split; [exact Mi|]. split; [exact Ma|].
  destruct (halves_some _ _ N (median_halves _ N)) as [[x [Ix Lx]] [y [Iy Ly]]].
  split; [split; [eapply Qle_trans; [apply Mi, Ix|exact Lx]|eapply Qle_trans; [exact Ly|apply Ma, Iy]]|].
  split; [apply mean_between; [exact N|]; intros z I; split; [now apply Mi|now apply Ma]|].
  set (l := a :: r) in *. clearbody l.
  assert (S1 : (0 < 1000000 / inject_Z count)%Q) by (apply Qlt_shift_div_l; [exact Cq|rewrite Qmult_0_l; reflexivity]).
  split; [|split; [|split]].
  - setoid_replace (median l / inject_Z count * 1000000)%Q with (median l * (1000000 / inject_Z count))%Q by (field; exact Cn).
    apply median_map; [intros s; field; exact Cn|exact S1|exact N].
  - setoid_replace (mean l / inject_Z count * 1000000)%Q with (mean l * (1000000 / inject_Z count))%Q by (field; exact Cn).
    apply mean_map; [intros s; field; exact Cn|exact N].
  - intros O. apply rates_median; auto. rewrite <- Nat.negb_odd, O. reflexivity.
  - apply mean_is. destruct l; [contradiction|discriminate].
Qed.
