(** Proofs for C102. *)
From Coq Require Import String Ascii.
From Coq Require Import List Arith NArith Bool Lia Permutation Sorted.
From Verif Require Import CodecModel CmdModel CmdProofs PerfModel PerfProofs HotModel HotProofs EnvModel EnvSpec.
Import ListNotations.
Local Open Scope nat_scope.

Section Env.
Context {V : Type} (eqv : V -> V -> bool) (shown : option V -> pystr).
Hypothesis eqv_eq : forall x y, eqv x y = true <-> x = y.
Notation info := (@info V).

Lemma same_eq x y : same_value eqv x y = true <-> x = y.
Proof. destruct x as [x|], y as [y|]; cbn; try (split; [discriminate|discriminate]); [|tauto]. rewrite eqv_eq. split; congruence. Qed.

Lemma get_has (i : info) k v : NoDup (map fst i) -> (get_field i k = v <-> has i k v).
Proof.
  induction i as [|[n x] i IH]; cbn [get_field map fst]; intros N.
  - destruct v; cbn; split; try tauto; try discriminate; auto.
  - inversion N as [|? ? N1 N2]; subst. destruct (str_eqb k n) eqn:E.
    + apply str_eqb_eq in E. subst n. destruct v as [v|]; cbn.
      * split; [intros [= ->]; now left|]. intros [K|K]; [congruence|]. destruct N1. now apply in_map with (f := fst) in K.
      * split; [discriminate|]. intros K. destruct K. now left.
    + assert (D : k <> n) by (intros K; apply str_eqb_eq in K; congruence). rewrite IH by assumption. destruct v as [v|]; cbn.
      * split; [now right|]. intros [K|K]; [congruence|exact K].
      * split; [intros K [H|H]; [congruence|contradiction]|intros K H; apply K; now right].
Qed.

Lemma listed_diff keys (a b : info) k x y : NoDup (map fst a) -> NoDup (map fst b) -> names_of a b keys ->
  (In (k, (x, y)) (diff eqv keys a b) <-> has a k x /\ has b k y /\ x <> y).
Proof.
  intros Na Nb [Nk H]. unfold diff. rewrite in_map_iff. rewrite <- (get_has a k x Na), <- (get_has b k y Nb). split.
  - intros [k' [E I]]. injection E as -> <- <-. apply filter_In in I as [_ I]. split; [reflexivity|]. split; [reflexivity|].
    intros E. apply same_eq in E. now rewrite E in I.
  - intros [<- [<- D]]. exists k. split; [reflexivity|]. apply filter_In. split.
    + apply H. destruct (in_dec (list_eq_dec N.eq_dec) k (map fst a)) as [I|I]; [auto|]. destruct (in_dec (list_eq_dec N.eq_dec) k (map fst b)) as [J|J]; [auto|].
      destruct D. apply (get_has a k None Na) in I. apply (get_has b k None Nb) in J. congruence.
    + apply negb_true_iff, not_true_iff_false. now rewrite same_eq.
Qed.

Lemma diff_keys keys (a b : info) : map fst (diff eqv keys a b) = filter (fun k => negb (same_value eqv (get_field a k) (get_field b k))) keys.
Proof. unfold diff. rewrite map_map. cbn. apply map_id. Qed.

Lemma diff_nodup keys (a b : info) : NoDup keys -> NoDup (map fst (diff eqv keys a b)).
Proof. intros N. rewrite diff_keys. now apply NoDup_filter. Qed.

Lemma swapped keys (a b : info) : diff eqv keys b a = map (fun e => (fst e, (snd (snd e), fst (snd e)))) (diff eqv keys a b).
Proof.
  unfold diff. rewrite map_map. cbn. f_equal. apply filter_ext. intros k. f_equal. apply eq_true_iff_eq. rewrite !same_eq. split; congruence.
Qed.

Definition by_name (x y : pystr * (option V * option V)) : bool := str_leb (fst x) (fst y).

Lemma sorted_names d : NoDup (map fst d) -> StronglySorted (leP by_name) d -> StronglySorted (fun x y => str_leb (fst x) (fst y) = true /\ fst x <> fst y) d.
Proof.
  intros N. induction 1 as [|x l S IH F]; [constructor|]. inversion N as [|? ? N1 N2]; subst. constructor; [now apply IH|].
  apply Forall_forall. intros y I. rewrite Forall_forall in F. split; [exact (F y I)|]. intros E. apply N1. rewrite E. now apply in_map.
Qed.

Lemma names_unique (l : list (pystr * (option V * option V))) : forall l', NoDup (map fst l) -> Permutation l l' -> StronglySorted (leP by_name) l -> StronglySorted (leP by_name) l' -> l = l'.
Proof.
  induction l as [|x l IH]; intros [|y l'] N P S S'; [reflexivity|apply Permutation_nil in P; discriminate|apply Permutation_sym, Permutation_nil in P; discriminate|].
  inversion N as [|? ? N1 N2]; inversion S as [|? ? S1 A1]; inversion S' as [|? ? S2 A2]; subst.
  assert (E : x = y).
  { assert (Iy : In y (x :: l)) by (apply (Permutation_in _ (Permutation_sym P)); now left).
    assert (Ix : In x (y :: l')) by (apply (Permutation_in _ P); now left).
    destruct Iy as [->|Iy]; [reflexivity|]. destruct Ix as [->|Ix]; [reflexivity|]. rewrite Forall_forall in A1, A2. specialize (A1 y Iy). specialize (A2 x Ix).
    destruct N1. rewrite (leb_anti _ _ A1 A2). now apply in_map. }
  subst y. f_equal. apply IH; auto. now apply Permutation_cons_inv in P.
Qed.

Lemma widest_perm l l' : Permutation l l' -> widest l = widest l'.
Proof. unfold widest. induction 1 as [|x l l' P IH|x y l|l l' l'' P1 IH1 P2 IH2]; cbn; [reflexivity|now rewrite IH|lia|congruence]. Qed.
Lemma widest_in k l : In k l -> length k <= widest l.
Proof. unfold widest. induction l as [|x l IH]; cbn; [intros []|]. intros [->|I]; [lia|specialize (IH I); lia]. Qed.

Lemma by_name_total x y : by_name x y = true \/ by_name y x = true.
Proof. apply leb_total. Qed.
Lemma by_name_trans x y z : by_name x y = true -> by_name y z = true -> by_name x z = true.
Proof. apply leb_trans. Qed.

Lemma format_perm d d' : NoDup (map fst d) -> Permutation d d' -> format_diff shown d = format_diff shown d'.
Proof.
  intros N P. destruct d as [|e d]; [apply Permutation_nil in P; now subst|]. destruct d' as [|e' d']; [apply Permutation_sym, Permutation_nil in P; discriminate|].
  unfold format_diff. rewrite (widest_perm _ _ (Permutation_map fst P)). f_equal. f_equal. f_equal.
  apply (names_unique (sort by_name (e :: d))).
  - eapply Permutation_NoDup; [apply Permutation_map, sort_perm|exact N].
  - etransitivity; [apply Permutation_sym, sort_perm|]. etransitivity; [exact P|apply sort_perm].
  - apply sort_sorted; [apply by_name_total|apply by_name_trans].
  - apply sort_sorted; [apply by_name_total|apply by_name_trans].
Qed.

Lemma diff_perm keys keys' (a b : info) : Permutation keys keys' -> Permutation (diff eqv keys a b) (diff eqv keys' a b).
Proof.
  intros P. unfold diff. apply Permutation_map. induction P as [|x l l' P IH|x y l|l l' l'' P1 IH1 P2 IH2]; cbn; [constructor| | |etransitivity; eassumption].
  - destruct (negb _); [now apply perm_skip|exact IH].
  - destruct (negb (same_value eqv (get_field a x) (get_field b x))), (negb (same_value eqv (get_field a y) (get_field b y))); try apply Permutation_refl. apply perm_swap.
Qed.

Lemma lines_nonempty s : lines_of s <> [].
Proof. destruct s as [|c s]; cbn; [discriminate|]. destruct (N.eqb c 10); [discriminate|]. destruct (lines_of s); discriminate. Qed.
Lemma lines_one s : ~ In 10%N s -> lines_of s = [s].
Proof.
  induction s as [|c s IH]; intros N; cbn; [reflexivity|]. destruct (N.eqb_spec c 10) as [->|D]; [destruct N; now left|].
  rewrite IH; [reflexivity|]. intros I. apply N. now right.
Qed.
Lemma lines_app s r : ~ In 10%N s -> lines_of (s ++ 10%N :: r) = s :: lines_of r.
Proof.
  induction s as [|c s IH]; intros N; cbn; [reflexivity|]. destruct (N.eqb_spec c 10) as [->|D]; [destruct N; now left|].
  rewrite IH; [reflexivity|]. intros I. apply N. now right.
Qed.
Lemma lines_join l : l <> [] -> Forall (fun s => ~ In 10%N s) l -> lines_of (join_lines l) = l.
Proof.
  induction l as [|x l IH]; intros N F; [contradiction|]. inversion F as [|? ? F1 F2]; subst. destruct l as [|y l]; [now apply lines_one|].
  change (join_lines (x :: y :: l)) with (x ++ 10%N :: join_lines (y :: l)). rewrite lines_app by exact F1. f_equal. apply IH; [discriminate|exact F2].
Qed.

Lemma widest_some l : l <> [] -> exists k, In k l /\ length k = widest l.
Proof.
  induction l as [|x l IH]; [contradiction|]. intros _. destruct l as [|y l]; [exists x; split; [now left|cbn; lia]|].
  destruct IH as [k [I L]]; [discriminate|]. change (widest (x :: y :: l)) with (Nat.max (length x) (widest (y :: l))).
  destruct (Nat.le_gt_cases (widest (y :: l)) (length x)); [exists x; split; [now left|lia]|exists k; split; [now right|lia]].
Qed.

Lemma text_lines d : NoDup (map fst d) -> d <> [] -> (forall k, In k (map fst d) -> ~ In 10%N k) -> (forall v, ~ In 10%N (shown v)) ->
  exists ds w, Permutation d ds /\ StronglySorted (fun x y => str_leb (fst x) (fst y) = true /\ fst x <> fst y) ds /\
    lines_of (format_diff shown d) = text "Differences in TestEnvironmentInfo:" ::
      map (fun e => text "  " ++ (fst e ++ repeat 32%N (w - length (fst e))) ++ text " : " ++ shown (fst (snd e)) ++ text "  !=  " ++ shown (snd (snd e))) ds /\
    (forall e, In e ds -> length (fst e ++ repeat 32%N (w - length (fst e))) = w) /\ (exists e, In e ds /\ length (fst e) = w).
Proof.
  intros N D K S. assert (P : Permutation d (sort by_name d)) by apply sort_perm. exists (sort by_name d), (widest (map fst d)). split; [exact P|].
  split; [apply sorted_names; [eapply Permutation_NoDup; [apply Permutation_map, P|exact N]|apply sort_sorted; [apply by_name_total|apply by_name_trans]]|]. split.
  - assert (E : format_diff shown d = join_lines (text "Differences in TestEnvironmentInfo:" :: map (line_of shown (widest (map fst d))) (sort by_name d))) by (destruct d; [contradiction|reflexivity]).
    rewrite E. rewrite lines_join; [reflexivity|discriminate|]. constructor; [vm_compute; intuition discriminate|]. apply Forall_forall. intros s I. apply in_map_iff in I as [e [<- I]].
    apply (Permutation_in _ (Permutation_sym P)) in I. unfold line_of, ljust. rewrite !in_app_iff. intros J.
    assert (A1 : ~ In 10%N (text "  ") /\ ~ In 10%N (text " : ") /\ ~ In 10%N (text "  !=  ")) by (vm_compute; intuition discriminate).
    assert (A2 : ~ In 10%N (repeat 32%N (widest (map fst d) - length (fst e)))) by (intros R; apply repeat_spec in R; discriminate).
    assert (A3 : ~ In 10%N (fst e)) by (apply K, in_map, I). pose proof (S (fst (snd e))). pose proof (S (snd (snd e))). tauto.
  - split.
    + intros e I. apply (Permutation_in _ (Permutation_sym P)) in I. rewrite app_length, repeat_length. pose proof (widest_in (fst e) (map fst d) (in_map fst _ _ I)). lia.
    + destruct (widest_some (map fst d)) as [k [I L]]; [destruct d; [contradiction|discriminate]|]. apply in_map_iff in I as [e [<- I]].
      exists e. split; [exact (Permutation_in _ P I)|exact L].
Qed.

Lemma nothing d : format_diff shown d = text "No differences." <-> d = [].
Proof.
  destruct d as [|e d]; [cbn; tauto|]. split; [|discriminate]. intros E. exfalso. unfold format_diff in E.
  remember (map (line_of shown (widest (map fst (e :: d)))) (sort (fun x y => str_leb (fst x) (fst y)) (e :: d))) as ls. clear Heqls.
  apply (f_equal (fun s => nth 0 s 0%N)) in E. destruct ls as [|l ls]; [discriminate E|]. discriminate E.
Qed.
End Env.
