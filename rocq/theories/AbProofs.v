(** Proofs about the A/B comparison. *)
From Coq Require Import String Ascii.
From Coq Require Import List Arith ZArith QArith Bool Permutation Lia Lqa.
From Verif Require Import Dict PerfModel PerfSpec PerfProofs AbModel AbSpec.
Import ListNotations.
Local Open Scope nat_scope.

(** ** The order of the rounds *)

Lemma base_SS n : base_order (S (S n)) = (A, B) :: (B, A) :: base_order n.
Proof.
  unfold base_order. replace ((S (S n) + 1) / 2) with (S ((n + 1) / 2)); [reflexivity|].
  replace (S (S n) + 1) with (1 * 2 + (n + 1)) by lia. rewrite Nat.div_add_l by lia. reflexivity.
Qed.

Lemma two_ind (P : nat -> Prop) : P 0 -> P 1 -> (forall n, P n -> P (S (S n))) -> forall n, P n.
Proof. intros H0 H1 H. assert (forall n, P n /\ P (S n)) as K; [|intros n; apply K]. induction n as [|n [I1 I2]]; auto. Qed.

Lemma base_balanced n : balanced (base_order n) n.
Proof.
  induction n as [| |n IH] using two_ind.
  - exists 0. cbn. auto.
  - exists 0. cbn. auto.
  - destruct IH as [k [P [L E]]]. exists (S k). rewrite base_SS. split; [|split; [cbn; lia|lia]].
    replace (S (S n) - S k) with (S (n - k)) by lia. cbn [repeat app]. constructor.
    rewrite <- Permutation_middle. now constructor.
Qed.

Lemma balanced_perm l l' n : Permutation l l' -> balanced l n -> balanced l' n.
Proof.
  intros P [k [Q [L E]]]. exists k. split; [now rewrite <- P|]. split; [now rewrite <- (Permutation_length P)|exact E].
Qed.

Definition proper (p : label * label) : Prop := p = (A, B) \/ p = (B, A).
Lemma balanced_proper l n : balanced l n -> Forall proper l.
Proof.
  intros [k [P _]]. apply Forall_forall. intros p I. apply (Permutation_in _ P) in I.
  apply in_app_or in I as [I|I]; apply repeat_spec in I; [now left|now right].
Qed.

(** ** Environments *)

Lemma app_str_nil s : (EmptyString ++ s)%string = s.
Proof. reflexivity. Qed.
Lemma app_str_cons c k s : (String c k ++ s)%string = String c (k ++ s).
Proof. reflexivity. Qed.

Lemma split_some k v : ~ In "="%char (list_ascii_of_string k) -> split_eq (k ++ "=" ++ v)%string = Some (k, v).
Proof.
  induction k as [|c k IH]; intros N; [reflexivity|]. cbn in N. rewrite app_str_cons. cbn [split_eq].
  destruct (Ascii.eqb_spec c "="%char) as [->|D]; [exfalso; auto|]. rewrite IH by tauto. reflexivity.
Qed.

Lemma split_inv x k v : split_eq x = Some (k, v) -> x = (k ++ "=" ++ v)%string /\ ~ In "="%char (list_ascii_of_string k).
Proof.
  revert k v. induction x as [|c x IH]; intros k v H; [discriminate|]. cbn in H. destruct (Ascii.eqb_spec c "="%char) as [->|D].
  - injection H as <- <-. split; [reflexivity|intros []].
  - destruct (split_eq x) as [[k' v']|] eqn:E; [|discriminate]. injection H as <- <-. destruct (IH _ _ eq_refl) as [-> N].
    split; [reflexivity|]. cbn. intuition congruence.
Qed.

Lemma put_fold d x k : get k (update d x) = match get k (rev x) with Some v => Some v | None => get k d end.
Proof.
  unfold update. revert d. induction x as [|[a b] x IH]; intros d; [reflexivity|]. cbn [fold_left rev fst snd]. rewrite IH.
  assert (G : forall l : list (string * string), get k (l ++ [(a, b)]) = match get k l with Some v => Some v | None => if dec k a then Some b else None end).
  { induction l as [|[a' b'] l IHl]; cbn; unfold eqd; [destruct (dec k a); reflexivity|]. destruct (dec k a'); [reflexivity|exact IHl]. }
  rewrite G. destruct (get k (rev x)); [reflexivity|]. rewrite get_put. destruct (dec k a); reflexivity.
Qed.

Lemma rev_get (d : list (string * string)) k : NoDup (keys d) -> get k (rev d) = get k d.
Proof.
  intros N. destruct (get k d) as [v|] eqn:E.
  - apply In_get; [unfold keys; rewrite map_rev; apply NoDup_rev, N|]. rewrite <- in_rev. now apply get_In.
  - apply get_None. apply get_None in E. unfold keys in *. rewrite map_rev. now rewrite <- in_rev.
Qed.

Lemma parse_spec vs : forall d d', NoDup (keys d) -> parse_env vs d = Some d' -> NoDup (keys d') /\
  forall k, name k -> (forall v, assigned vs k v -> get k d' = Some v) /\ (unassigned vs k -> get k d' = get k d).
Proof.
  induction vs as [|x vs IH]; intros d d' N H; cbn [parse_env] in H.
  - injection H as <-. split; [exact N|]. intros k Nk. split; [|reflexivity]. intros v [[|] [l2 [E _]]]; discriminate E.
  - destruct (split_eq x) as [[[|c k0] v0]|] eqn:E; try discriminate. destruct (split_inv _ _ _ E) as [-> Ne].
    destruct (IH _ _ (NoDup_keys_put _ _ _ N) H) as [N' K]. split; [exact N'|]. intros k Nk. destruct (K k Nk) as [K1 K2]. split.
    + intros v [l1 [l2 [El Un]]]. destruct l1 as [|y l1]; cbn [app] in El.
      * injection El as Ex <-. pose proof (split_some k v (proj2 Nk)) as S1.
        assert (S2 : Some (String c k0, v0) = Some (k, v)) by (rewrite <- E, <- S1; apply f_equal; exact Ex). injection S2 as <- <-. rewrite (K2 Un). apply get_put_eq.
      * injection El as _ ->. apply K1. now exists l1, l2.
    + intros Un. rewrite K2; [|intros v I; apply (Un v); now right]. apply get_put_neq. intros ->. apply (Un v0). now left.
Qed.

Lemma assigned_dec vs k : name k -> (exists v, assigned vs k v) \/ unassigned vs k.
Proof.
  intros [_ Nk]. induction vs as [|x vs [[v [l1 [l2 [E U]]]]|U]].
  - right. intros v [].
  - left. exists v, (x :: l1), l2. split; [now rewrite E|exact U].
  - destruct (split_eq x) as [[k' v]|] eqn:E.
    + destruct (split_inv _ _ _ E) as [-> N']. destruct (dec k' k) as [->|D].
      * left. exists v, [], vs. now split.
      * right. intros v' [Q|I]; [|now apply (U v')]. pose proof (split_some k v' Nk) as S1. rewrite <- Q, E in S1. congruence.
    + right. intros v' [->|I]; [|now apply (U v')]. rewrite (split_some k v' Nk) in E. discriminate.
Qed.

Lemma tree_env_value w t p both own e eo k : parse_env both [] = Some e -> parse_env own [] = Some eo -> name k ->
  k <> "PYTHONPATH"%string -> k <> "VIRTUAL_ENV"%string ->
  value_for w both own k (get k (tree_env w t p (update e eo))).
Proof.
  intros P1 P2 Nk D1 D2. assert (N0 : NoDup (keys (@nil (string * string)))) by constructor.
  destruct (parse_spec _ _ _ N0 P1) as [N1 K1]. destruct (parse_spec _ _ _ N0 P2) as [N2 K2].
  destruct (K1 k Nk) as [A1 A2]. destruct (K2 k Nk) as [B1 B2].
  assert (Nu : NoDup (keys (update e eo))).
  { unfold update. clear -N1. revert e N1. induction eo as [|x eo IH]; intros e N1; [exact N1|]. cbn. apply IH, NoDup_keys_put, N1. }
  assert (G : get k (tree_env w t p (update e eo)) = match get k (update e eo) with Some v => Some v | None => get k (base_env w) end).
  { unfold tree_env. destruct (venv w p) as [v|].
    - rewrite get_put_neq by exact D2. rewrite get_put_neq by exact D1. rewrite put_fold, rev_get by exact Nu. reflexivity.
    - rewrite get_put_neq by exact D1. rewrite put_fold, rev_get by exact Nu. reflexivity. }
  rewrite G, put_fold, (rev_get eo) by exact N2. split; [|split].
  - intros v H. now rewrite (B1 v H).
  - intros U v H. rewrite (B2 U). cbn. now rewrite (A1 v H).
  - intros U V. rewrite (B2 U), (A2 V). reflexivity.
Qed.

Lemma tree_env_path w t p o : exists rest, get "PYTHONPATH"%string (tree_env w t p o) = Some (src w t ++ rest)%string.
Proof.
  assert (N : forall s, (s ++ "")%string = s) by (induction s as [|c s IH]; cbn; congruence).
  unfold tree_env. set (e := update (base_env w) o).
  assert (K : forall path, exists rest, get "PYTHONPATH"%string (put "PYTHONPATH"%string (src w t ++ path)%string e) = Some (src w t ++ rest)%string).
  { intros path. exists path. apply get_put_eq. }
  assert (K' : exists rest, get "PYTHONPATH"%string (put "PYTHONPATH"%string
    (match get "PYTHONPATH"%string e with Some (String c r) => (src w t ++ ":" ++ String c r)%string | _ => src w t end) e) = Some (src w t ++ rest)%string).
  { destruct (get "PYTHONPATH"%string e) as [[|c r]|]; [exists EmptyString; rewrite N; apply get_put_eq|apply K|exists EmptyString; rewrite N; apply get_put_eq]. }
  destruct (venv w p); [|exact K']. destruct K' as [r K']. exists r. rewrite get_put_neq by discriminate. exact K'.
Qed.

(** ** Children *)

Definition tagged (js : label -> job) (m : bool) (l : label) : bool * label * job := (m, l, js l).

Definition still (s s' : state) : Prop := worktrees s' = worktrees s /\ temps s' = temps s.

Lemma warm_spec w js b n : forall s s' e, warm w js b n s = (s', e) -> still s s' /\
  exists ls, runs s' = runs s ++ map (tagged js false) ls /\
    (e = None -> length ls = n + (if b then 0 else n) /\
       forall i r, length (runs s) <= i -> nth_error (runs s') i = Some r -> bench w i (job_of r) <> None) /\
    (e = None \/ e = Some BenchFailed).
Proof.
  induction n as [|n IH]; intros s s' e H; cbn [warm] in H.
  - injection H as <- <-. split; [now split|]. exists []. rewrite app_nil_r. split; [reflexivity|]. split; [|now left]. intros _.
    split; [now destruct b|]. intros i r L E. assert (i < length (runs s)) by (apply nth_error_Some; congruence). lia.
  - unfold child in H at 1. destruct (bench w (length (runs s)) (js A)) as [d|] eqn:Ea.
    2:{ injection H as <- <-. split; [now split|]. exists [A]. split; [reflexivity|]. split; [discriminate|now right]. }
    set (s1 := {| worktrees := worktrees s; temps := temps s; runs := runs s ++ [(false, A, js A)] |}) in H.
    assert (N1 : forall i r, length (runs s) <= i -> i < length (runs s1) -> nth_error (runs s1) i = Some r -> bench w i (job_of r) <> None).
    { intros i r L L' E. unfold s1 in *. cbn in L', E. rewrite app_length in L'. cbn in L'. assert (i = length (runs s)) as -> by lia.
      rewrite nth_error_app2, Nat.sub_diag in E by lia. injection E as <-. cbn. congruence. }
    destruct b.
    + destruct (IH _ _ _ H) as [[S1 S2] [ls [R [K1 K2]]]]. split; [split; assumption|]. exists (A :: ls).
      split; [rewrite R; unfold s1; cbn; now rewrite <- app_assoc|]. split; [|exact K2]. intros E. destruct (K1 E) as [L K]. split; [cbn in L |- *; lia|].
      intros i r Li Er. destruct (Nat.lt_ge_cases i (length (runs s1))) as [Lt|Ge]; [|now apply K].
      apply N1; [exact Li|exact Lt|]. rewrite R, nth_error_app1 in Er by exact Lt. exact Er.
    + unfold child in H at 1. destruct (bench w (length (runs s1)) (js B)) as [d'|] eqn:Eb.
      2:{ injection H as <- <-. split; [now split|]. exists [A; B]. split; [unfold s1; cbn; now rewrite <- app_assoc|]. split; [discriminate|now right]. }
      set (s2 := {| worktrees := worktrees s1; temps := temps s1; runs := runs s1 ++ [(false, B, js B)] |}) in H.
      destruct (IH _ _ _ H) as [[S1 S2] [ls [R [K1 K2]]]]. split; [split; assumption|]. exists (A :: B :: ls).
      split; [rewrite R; unfold s2, s1; cbn; now rewrite <- !app_assoc|]. split; [|exact K2]. intros E. destruct (K1 E) as [L K]. split; [cbn in L |- *; lia|].
      intros i r Li Er. destruct (Nat.lt_ge_cases i (length (runs s2))) as [Lt|Ge]; [|now apply K].
      rewrite R, nth_error_app1 in Er by exact Lt.
      destruct (Nat.lt_ge_cases i (length (runs s1))) as [Lt1|Ge1].
      * apply N1; [exact Li|exact Lt1|]. unfold s2 in Er. cbn [runs] in Er. rewrite nth_error_app1 in Er by exact Lt1. exact Er.
      * change (runs s2) with (runs s1 ++ [(false, B, js B)]) in Lt, Er. rewrite app_length in Lt. cbn [length] in Lt. assert (i = length (runs s1)) as -> by lia.
        rewrite nth_error_app2, Nat.sub_diag in Er by lia. injection Er as <-. change (job_of (false, B, js B)) with (js B). rewrite Eb. discriminate.
Qed.

(** What the children of the rounds gave. *)
Fixpoint good (w : world) (js : label -> job) (n : nat) (order : list (label * label)) (qs : list (figures * figures)) : Prop :=
  match order, qs with
  | [], [] => True
  | p :: r, (a, b) :: qs => bench w (n + place A p) (js A) = Some a /\ bench w (n + place B p) (js B) = Some b /\
      same_keys a b = true /\ good w js (S (S n)) r qs
  | _, _ => False
  end.

Lemma measure_spec w js order : Forall proper order -> forall s ps s' ps' e, measure w js order s ps = (s', ps', e) -> still s s' /\
  exists ls, runs s' = runs s ++ map (tagged js true) ls /\
    (e = None -> ls = sides order /\ exists qs, ps' = ps ++ qs /\ good w js (length (runs s)) order qs) /\
    (e = None \/ e = Some BenchFailed \/ e = Some CasesDiffer).
Proof.
  induction order as [|[f g] order IH]; intros F s ps s' ps' e H; cbn [measure] in H.
  - injection H as <- <- <-. split; [now split|]. exists []. split; [now rewrite app_nil_r|]. split; [|now left].
    intros _. split; [reflexivity|]. exists []. now rewrite app_nil_r.
  - apply Forall_cons_iff in F as [Pr F].
    unfold child in H at 1. destruct (bench w (length (runs s)) (js f)) as [x|] eqn:Ef.
    2:{ injection H as <- <- <-. split; [now split|]. exists [f]. split; [reflexivity|]. split; [discriminate|auto]. }
    unfold child in H at 1. cbn [runs worktrees temps] in H.
    destruct (bench w (length (runs s ++ [(true, f, js f)])) (js g)) as [y|] eqn:Eg.
    2:{ injection H as <- <- <-. split; [now split|]. exists [f; g]. split; [cbn; now rewrite <- app_assoc|]. split; [discriminate|auto]. }
    destruct (same_keys _ _) eqn:Ek.
    2:{ injection H as <- <- <-. split; [now split|]. exists [f; g]. split; [cbn; now rewrite <- app_assoc|]. split; [discriminate|auto]. }
    destruct (IH F _ _ _ _ _ H) as [[S1 S2] [ls [R [K1 K2]]]]. split; [split; assumption|]. exists (f :: g :: ls).
    split; [rewrite R; cbn; now rewrite <- !app_assoc|]. split; [|exact K2]. intros E. destruct (K1 E) as [-> [qs [-> G]]].
    split; [reflexivity|]. rewrite app_length in Eg. cbn in Eg. cbn [runs] in G. rewrite !app_length in G. cbn in G.
    replace (length (runs s) + 1 + 1) with (S (S (length (runs s)))) in G by lia.
    destruct Pr as [Pr|Pr]; injection Pr as -> ->; eexists; (split; [rewrite <- app_assoc; reflexivity|]);
      cbn [good fst snd app place same] in *; unfold place; cbn [fst same]; rewrite Nat.add_0_r; auto.
Qed.

(** ** The command *)

Definition paired (w : world) (o : options) : list (label * label) := shuffle w (base_order (rounds o)).

Lemma paired_balanced w o : shuffles w -> balanced (paired w o) (rounds o).
Proof. intros S. apply (balanced_perm (base_order (rounds o))); [symmetry; apply S|apply base_balanced]. Qed.

Definition jobs_of (w : world) (oa ob : list (string * string)) (ta tb : tree) (pa pb : string) (l : label) : job :=
  match l with
  | A => {| where_ := ta; python := pa; environ := tree_env w ta pa oa |}
  | B => {| where_ := tb; python := pb; environ := tree_env w tb pb ob |}
  end.

Lemma body_spec w o oa ob ta tb s s' ps e : shuffles w -> body w o oa ob ta tb s = (s', ps, e) -> still s s' /\
  ((runs s' = runs s /\ ps = None /\ (e = Some NoPython \/ e = Some ProbeFailed \/ e = Some EnvMismatch)) \/
   exists pa pb ls ls', pythons w o ta tb = Some (pa, pb) /\
     runs s' = runs s ++ map (tagged (jobs_of w oa ob ta tb pa pb) false) ls ++ map (tagged (jobs_of w oa ob ta tb pa pb) true) ls' /\
     (e = None -> ls' = sides (paired w o) /\
        (forall i r, length (runs s) <= i -> i < length (runs s) + length ls -> nth_error (runs s') i = Some r -> bench w i (job_of r) <> None) /\
        exists qs, ps = Some qs /\ good w (jobs_of w oa ob ta tb pa pb) (length (runs s) + length ls) (paired w o) qs) /\
     (e = None \/ e = Some BenchFailed \/ e = Some CasesDiffer)).
Proof.
  intros Sh H. unfold body in H. destruct (pythons w o ta tb) as [[pa pb]|] eqn:Py.
  2:{ injection H as <- <- <-. split; [now split|]. left. auto. }
  destruct (negb (probe_ok w A && probe_ok w B)). { injection H as <- <- <-. split; [now split|]. left. auto 6. }
  destruct (shared o && negb (force o) && negb (eqd (meta w ta) (meta w tb))). { injection H as <- <- <-. split; [now split|]. left. auto 6. }
  cbn [environ] in H. change (fun l : label => match l with A => _ | B => _ end) with (jobs_of w oa ob ta tb pa pb) in H.
  match type of H with context [warm w ?js ?b _ s] => set (sk := b) in H; set (J := js) in H end.
  destruct (warm w J sk (prewarm o) s) as [s1 e1] eqn:Ew. destruct (warm_spec _ _ _ _ _ _ _ Ew) as [[W1 W2] [ls [R1 [K1 K2]]]].
  destruct e1 as [e1|].
  { injection H as <- <- <-. split; [now split|]. right. exists pa, pb, ls, []. split; [reflexivity|].
    split; [cbn; rewrite app_nil_r; exact R1|]. split; [discriminate|]. destruct K2 as [K2|K2]; [discriminate|auto]. }
  destruct (measure w J (shuffle w (base_order (rounds o))) s1 []) as [[s2 ps2] e2] eqn:Em. injection H as <- <- <-.
  destruct (measure_spec w J (paired w o) (balanced_proper _ _ (paired_balanced w o Sh)) _ _ _ _ _ Em) as [[M1 M2] [ls' [R2 [L1 L2]]]].
  split; [split; congruence|]. right. exists pa, pb, ls, ls'. split; [reflexivity|].
  split; [change (jobs_of w oa ob ta tb pa pb) with J; rewrite R2, R1; now rewrite <- app_assoc|]. split; [|exact L2].
  intros E. destruct (L1 E) as [-> [qs [-> G]]]. split; [reflexivity|]. destruct (K1 eq_refl) as [_ Kb]. split.
  - intros i r Li Lt Er. apply Kb; [exact Li|]. rewrite R2, nth_error_app1 in Er; [exact Er|]. rewrite R1, app_length, map_length. exact Lt.
  - exists qs. split; [reflexivity|]. rewrite R1, app_length, map_length in G. exact G.
Qed.

Lemma provision_spec w dir ref l s s' t m : provision w dir ref l s = (s', t, m) -> runs s' = runs s /\
  ((exists p, dir = Some p /\ t = Some (Path p) /\ m = false /\ s' = s) \/
   (dir = None /\ is_current ref = true /\ t = Some (Path (root w)) /\ m = false /\ s' = s) \/
   (dir = None /\ is_current ref = false /\ t = Some (Work l) /\ m = true /\ add_ok w l = true /\
      worktrees s' = worktrees s ++ [l] /\ temps s' = temps s ++ [l]) \/
   (dir = None /\ is_current ref = false /\ t = None /\ m = false /\ add_ok w l = false /\
      worktrees s' = worktrees s /\ temps s' = temps s ++ [l])).
Proof.
  unfold provision. destruct dir as [p|]; [intros H; injection H as <- <- <-; split; [reflexivity|left; now exists p]|].
  destruct (is_current ref); [intros H; injection H as <- <- <-; split; [reflexivity|right; left; auto]|].
  destruct (add_ok w l); intros H; injection H as <- <- <-; (split; [reflexivity|right; right; auto 10]).
Qed.

Lemma undo_runs w o m l s e s' e' : clean_up w o m l s e = (s', e') -> runs s' = runs s /\ (keep o = false -> e' = None -> e = None).
Proof.
  unfold clean_up. destruct m; cbn; [|intros H; injection H as <- <-; auto]. destruct (keep o); [intros H; injection H as <- <-; split; [reflexivity|discriminate]|].
  intros H. injection H as <- <-. split; [reflexivity|]. destruct (remove_ok w l); [auto|discriminate].
Qed.

Lemma perf_inv w o s r : perf_ab w o = (s, r) ->
  (s = fresh /\ (r = Raises BadArgs \/ r = Raises BadEnv)) \/
  (0 < rounds o /\ exists e ea eb, parse_env (env o) [] = Some e /\ parse_env (env_a o) [] = Some ea /\ parse_env (env_b o) [] = Some eb /\
    ((exists m, provision w (dir_a o) (default_ref (ref_a o) "dev") A fresh = (s, None, m) /\ r = Raises GitFailed) \/
     exists s1 ta ma, provision w (dir_a o) (default_ref (ref_a o) "dev") A fresh = (s1, Some ta, ma) /\
      ((exists s2 m x, provision w (dir_b o) (default_ref (ref_b o) "CURRENT") B s1 = (s2, None, m) /\
          clean_up w o ma A s2 (Some GitFailed) = (s, x) /\ r = match x with Some x => Raises x | None => Raises Unbound end) \/
       exists s2 tb mb s3 ps x s4 x4 x5, provision w (dir_b o) (default_ref (ref_b o) "CURRENT") B s1 = (s2, Some tb, mb) /\
          body w o (update e ea) (update e eb) ta tb s2 = (s3, ps, x) /\ clean_up w o mb B s3 x = (s4, x4) /\ clean_up w o ma A s4 x4 = (s, x5) /\
          r = match x5 with Some x => Raises x | None => summarize o ps end))).
Proof.
  unfold perf_ab. intros H.
  match type of H with (if ?c then _ else _) = _ => destruct c eqn:C end; [injection H as <- <-; left; auto|].
  assert (R : 0 < rounds o).
  { rewrite !orb_false_iff in C. destruct C as [[[C _] _] _]. apply Nat.eqb_neq in C. lia. }
  destruct (parse_env (env o) []) as [e|]; [|injection H as <- <-; left; auto].
  destruct (parse_env (env_a o) []) as [ea|]; [|injection H as <- <-; left; auto].
  destruct (parse_env (env_b o) []) as [eb|]; [|injection H as <- <-; left; auto].
  right. split; [exact R|]. exists e, ea, eb. repeat (split; [reflexivity|]).
  destruct (provision w (dir_a o) (default_ref (ref_a o) "dev") A fresh) as [[s1 [ta|]] ma].
  2:{ injection H as <- <-. left. now exists ma. }
  right. exists s1, ta, ma. split; [reflexivity|].
  destruct (provision w (dir_b o) (default_ref (ref_b o) "CURRENT") B s1) as [[s2 [tb|]] mb].
  2:{ left. exists s2, mb. destruct (clean_up w o ma A s2 (Some GitFailed)) as [s3 x]. injection H as <- <-. exists x. now destruct x. }
  right. exists s2, tb, mb. destruct (body w o (update e ea) (update e eb) ta tb s2) as [[s3 ps] x] eqn:Eb.
  destruct (clean_up w o mb B s3 x) as [s4 x4] eqn:E4. destruct (clean_up w o ma A s4 x4) as [s5 x5] eqn:E5. injection H as <- <-.
  exists s3, ps, x, s4, x4, x5. auto.
Qed.

Lemma prov_tree_a w o s s' t m : provision w (dir_a o) (default_ref (ref_a o) "dev") A s = (s', Some t, m) -> tree_of w o A t.
Proof.
  intros H. apply provision_spec in H as [_ H]. unfold tree_of, needs_worktree, own_dir.
  destruct H as [[p [-> [E _]]]|[[-> [E1 [E _]]]|[[-> [E1 [E _]]]|[_ [_ [E _]]]]]]; try discriminate E; injection E as ->.
  - reflexivity.
  - right. rewrite E1. split; [intros [_ K]; discriminate|reflexivity].
  - left. auto.
Qed.
Lemma prov_tree_b w o s s' t m : provision w (dir_b o) (default_ref (ref_b o) "CURRENT") B s = (s', Some t, m) -> tree_of w o B t.
Proof.
  intros H. apply provision_spec in H as [_ H]. unfold tree_of, needs_worktree, own_dir.
  destruct H as [[p [-> [E _]]]|[[-> [E1 [E _]]]|[[-> [E1 [E _]]]|[_ [_ [E _]]]]]]; try discriminate E; injection E as ->.
  - reflexivity.
  - right. rewrite E1. split; [intros [_ K]; discriminate|reflexivity].
  - left. auto.
Qed.

(** ** The report *)

Lemma traverse_length {X Y : Type} (f : X -> option Y) l ys : traverse f l = Some ys -> length ys = length l.
Proof.
  revert ys. induction l as [|x l IH]; intros ys H; cbn in H; [injection H as <-; reflexivity|].
  destruct (f x); [|discriminate]. destruct (traverse f l); [|discriminate]. injection H as <-. cbn. f_equal. now apply IH.
Qed.
Lemma traverse_nth {X Y : Type} (f : X -> option Y) l ys i y : traverse f l = Some ys -> nth_error ys i = Some y ->
  exists x, nth_error l i = Some x /\ f x = Some y.
Proof.
  revert ys i. induction l as [|x l IH]; intros ys i H E; cbn in H; [injection H as <-; destruct i; discriminate|].
  destruct (f x) as [z|] eqn:F; [|discriminate]. destruct (traverse f l) as [zs|] eqn:T; [|discriminate]. injection H as <-.
  destruct i as [|i]; cbn in E; [injection E as <-; now exists x|]. now apply (IH zs i).
Qed.

Lemma split_filter {X : Type} (f : X -> bool) l : Permutation l (filter (fun x => negb (f x)) l ++ filter f l).
Proof.
  induction l as [|x l IH]; [constructor|]. cbn. destruct (f x); cbn; [rewrite <- Permutation_middle|]; now constructor.
Qed.

Lemma case_says ps c x : ps <> [] -> summarize_case ps c = inl x -> case_id x = c /\
  exists xs ys, traverse (fun p : figures * figures => get c (fst p)) ps = Some xs /\
    traverse (fun p : figures * figures => get c (snd p)) ps = Some ys /\ says x xs ys.
Proof.
  intros N H. unfold summarize_case in H.
  destruct (traverse (fun p : figures * figures => get c (fst p)) ps) as [xs|] eqn:T1; [|discriminate].
  destruct (traverse (fun p : figures * figures => get c (snd p)) ps) as [ys|] eqn:T2; [|discriminate].
  destruct (existsb (fun a => Qeq_bool a 0) xs) eqn:Z; [discriminate|]. injection H as <-. split; [reflexivity|].
  exists xs, ys. split; [reflexivity|]. split; [reflexivity|].
  pose proof (traverse_length _ _ _ T1) as L1. pose proof (traverse_length _ _ _ T2) as L2.
  assert (Np : length ps <> 0) by (destruct ps; [congruence|discriminate]).
  assert (Nx : xs <> []) by (destruct xs; [cbn in L1; congruence|discriminate]).
  assert (Ny : ys <> []) by (destruct ys; [cbn in L2; congruence|discriminate]).
  assert (Lc : length (combine xs ys) = length xs) by (rewrite combine_length; lia).
  assert (Nd : map delta (combine xs ys) <> []).
  { intros K. apply (f_equal (@length Q)) in K. rewrite map_length, Lc in K. cbn in K. lia. }
  unfold says. cbn. split; [now apply median_is|]. split; [now apply median_is|]. split.
  { exists (map delta (combine xs ys)). split; [|split; [now apply median_is|now apply mean_is]].
    assert (G : forall l, (forall p, In p l -> ~ (fst p == 0)%Q) -> Forall2 (fun p d => (d * fst p == (snd p - fst p) * 100)%Q) l (map delta l)).
    { induction l as [|p l IH]; intros K; [constructor|]. cbn. constructor; [|apply IH; intros q I; apply K; now right].
      unfold delta. field. apply K. now left. }
    apply G. intros [a b] I. apply in_combine_l in I. cbn. intros E.
    assert (K : existsb (fun a => Qeq_bool a 0) xs = true) by (apply existsb_exists; exists a; split; [exact I|now apply Qeq_bool_iff]). congruence. }
  split; [rewrite map_length; exact Lc|].
  exists (filter (fun p => negb (Qle_bool (fst p) (snd p))) (combine xs ys)). split; [apply split_filter|]. split; [|reflexivity].
  apply Forall_forall. intros p I. apply filter_In in I as [_ I]. apply negb_true_iff in I. apply Qnot_le_lt. intros K.
  apply Qle_bool_iff in K. congruence.
Qed.

Lemma cases_spec ps ids cs : summarize_cases ps ids = inl cs ->
  Forall2 (fun c x => summarize_case ps c = inl x) ids cs.
Proof.
  revert cs. induction ids as [|c ids IH]; intros cs H; cbn in H; [injection H as <-; constructor|].
  destruct (summarize_case ps c) as [x|] eqn:E; [|discriminate]. destruct (summarize_cases ps ids) as [l|]; [|discriminate].
  injection H as <-. constructor; auto.
Qed.

Lemma Forall2_in_r {X Y : Type} (P : X -> Y -> Prop) l l' : Forall2 P l l' -> forall y, In y l' -> exists x, In x l /\ P x y.
Proof. induction 1 as [|x y l l' H F IH]; intros z []; [subst; exists x; cbn; auto|]. destruct (IH z H0) as [u [I K]]. exists u; cbn; auto. Qed.
Lemma Forall2_in_l {X Y : Type} (P : X -> Y -> Prop) l l' : Forall2 P l l' -> forall x, In x l -> exists y, In y l' /\ P x y.
Proof. induction 1 as [|x y l l' H F IH]; intros z []; [subst; exists y; cbn; auto|]. destruct (IH z H0) as [u [I K]]. exists u; cbn; auto. Qed.

Lemma good_length w js order : forall n qs, good w js n order qs -> length qs = length order.
Proof. induction order as [|p order IH]; intros n [|[a b] qs] G; cbn in *; try contradiction; [reflexivity|]. f_equal. now apply (IH (S (S n))). Qed.

Lemma good_nth w js order : forall n qs i p q, good w js n order qs -> nth_error order i = Some p -> nth_error qs i = Some q ->
  bench w (n + 2 * i + place A p) (js A) = Some (fst q) /\ bench w (n + 2 * i + place B p) (js B) = Some (snd q) /\
  same_keys (fst q) (snd q) = true.
Proof.
  induction order as [|p0 order IH]; intros n qs i p q G Hp Hq; [destruct i; discriminate|].
  destruct qs as [|[a b] qs]; [destruct i; discriminate|]. cbn [good] in G. destruct G as [Ga [Gb [Gk G]]].
  destruct i as [|i]; cbn in Hp, Hq.
  - injection Hp as ->. injection Hq as <-. rewrite Nat.mul_0_r, Nat.add_0_r. auto.
  - replace (n + 2 * S i) with (S (S n) + 2 * i) by lia. now apply (IH (S (S n)) qs i).
Qed.

Lemma sides_nth order i p l : nth_error order i = Some p -> proper p -> nth_error (sides order) (2 * i + place l p) = Some l.
Proof.
  revert i. induction order as [|q order IH]; intros [|i] H P; try discriminate; cbn in H.
  - injection H as ->. destruct P as [-> | ->]; destruct l; reflexivity.
  - replace (2 * S i + place l p) with (S (S (2 * i + place l p))) by lia. cbn [sides flat_map app nth_error]. now apply IH.
Qed.

Lemma measured_intro w s k order js qs l c xs (pr : figures * figures -> figures) : Forall proper order ->
  (forall i, nth_error (runs s) (k + i) = nth_error (map (tagged js true) (sides order)) i) ->
  good w js k order qs -> (pr = match l with A => fst | B => snd end) ->
  traverse (fun p => get c (pr p)) qs = Some xs -> measured w s k order l c xs.
Proof.
  intros Pr Hr G Hp T. split; [rewrite (traverse_length _ _ _ T); now apply (good_length w js order k)|].
  intros i p x Ep Ex. destruct (traverse_nth _ _ _ _ _ T Ex) as [q [Eq Gq]].
  destruct (good_nth _ _ _ _ _ _ _ _ G Ep Eq) as [Ba [Bb _]].
  assert (Pp : proper p) by (apply (proj1 (Forall_forall _ _) Pr), (nth_error_In _ _ Ep)).
  exists (js l), (pr q). split.
  { rewrite <- Nat.add_assoc, Hr, nth_error_map, (sides_nth _ _ _ l Ep Pp). reflexivity. }
  split; [|exact Gq]. subst pr. destruct l; assumption.
Qed.

Lemma report w o s n cs : shuffles w -> keep o = false -> perf_ab w o = (s, Report n cs) -> report_ok w o s n cs.
Proof.
  intros Sh Kp H. apply perf_inv in H as [[_ [H|H]]|[R [e [ea [eb [_ [_ [_ [[m [_ H]]|[s1 [ta [ma [Pa H]]]]]]]]]]]]]; try discriminate.
  destruct H as [[s2 [m [x [_ [_ H]]]]]|[s2 [tb [mb [s3 [ps [x [s4 [x4 [x5 [Pb [Bo [U4 [U5 H]]]]]]]]]]]]]]; [destruct x; discriminate|].
  destruct x5 as [x5|]; [discriminate|].
  destruct (undo_runs _ _ _ _ _ _ _ _ U5) as [R5 N5]. specialize (N5 Kp eq_refl). subst x4.
  destruct (undo_runs _ _ _ _ _ _ _ _ U4) as [R4 N4]. specialize (N4 Kp eq_refl). subst x.
  apply provision_spec in Pa as [Ra _]. apply provision_spec in Pb as [Rb _]. cbn in Ra.
  destruct (body_spec _ _ _ _ _ _ _ _ _ _ Sh Bo) as [_ [[_ [_ [K|[K|K]]]]|[pa [pb [ls [ls' [Py [Rr [K _]]]]]]]]]; try discriminate.
  destruct (K eq_refl) as [-> [Wok [qs [-> G]]]]. rewrite Rb, Ra in *. cbn [app length] in *.
  pose proof (paired_balanced w o Sh) as Ba. pose proof (balanced_proper _ _ Ba) as Pr.
  set (js := jobs_of w (update e ea) (update e eb) ta tb pa pb) in *. set (order := paired w o) in *.
  assert (Rs : runs s = map (tagged js false) ls ++ map (tagged js true) (sides order)) by congruence.
  clearbody js order.
  assert (Lw : length (map (tagged js false) ls) = length ls) by apply map_length.
  assert (Lo : length order = rounds o) by (destruct Ba as [kk [_ [Ba _]]]; exact Ba).
  change (0 + length ls) with (length ls) in Wok, G.
  assert (Lq : length qs = rounds o) by (rewrite (good_length _ _ _ _ _ G); exact Lo).
  unfold summarize in H. destruct qs as [|[a b] qs]; [cbn in Lq; lia|].
  destruct (summarize_cases ((a, b) :: qs) (keys a)) as [cs'|] eqn:Sc; [|discriminate]. injection H as -> <-.
  assert (Hr : forall i, nth_error (runs s) (length ls + i) = nth_error (map (tagged js true) (sides order)) i).
  { intros i. rewrite Rs, nth_error_app2 by lia. rewrite Lw. f_equal. lia. }
  split; [reflexivity|]. exists order, (length ls). split; [exact Ba|]. split.
  { rewrite Rs, <- Lw, skipn_app, skipn_all, Nat.sub_diag. cbn [app skipn]. rewrite map_map. apply map_ext. reflexivity. }
  split.
  { rewrite Rs, <- Lw, firstn_app, firstn_all, Nat.sub_diag. cbn [firstn]. rewrite app_nil_r. apply Forall_map, Forall_forall. reflexivity. }
  split.
  { intros i r Er. destruct (Nat.lt_ge_cases i (length ls)) as [Lt|Ge].
    - apply Wok; [lia|exact Lt|]. congruence.
    - replace i with (length ls + (i - length ls)) in Er |- * by lia. rewrite Hr in Er. generalize dependent (i - length ls). intros q Er.
      rewrite nth_error_map in Er. destruct (nth_error (sides order) q) as [l|] eqn:El; [|discriminate]. injection Er as <-. cbn.
      assert (Ex : exists i' p, nth_error order i' = Some p /\ q = 2 * i' + place l p).
      { clear -El Pr. revert q El. induction Pr as [|p order P Pr IH]; intros q El; [destruct q; discriminate|].
        destruct q as [|[|q]]; cbn in El.
        - exists 0, p. split; [reflexivity|]. injection El as <-. destruct P as [-> | ->]; reflexivity.
        - exists 0, p. split; [reflexivity|]. injection El as <-. destruct P as [-> | ->]; reflexivity.
        - destruct (IH q El) as [i' [p' [E1 E2]]]. exists (S i'), p'. split; [exact E1|lia]. }
      destruct Ex as [i' [p [Ep ->]]].
      assert (Lp : i' < length ((a, b) :: qs)) by (rewrite Lq, <- Lo; apply nth_error_Some; congruence).
      apply nth_error_Some in Lp. destruct (nth_error ((a, b) :: qs) i') as [pq|] eqn:Eq; [|congruence].
      destruct (good_nth _ _ _ _ _ _ _ _ G Ep Eq) as [B1 [B2 _]]. rewrite Nat.add_assoc. destruct l; congruence. }
  pose proof (cases_spec _ _ _ Sc) as F2. split.
  { apply Forall_forall. intros c Ic. destruct (Forall2_in_r _ _ _ F2 c Ic) as [i [Ii Ec]].
    assert (Nq : (a, b) :: qs <> []) by discriminate. destruct (case_says _ _ _ Nq Ec) as [<- [xs [ys [T1 [T2 Sy]]]]]. exists xs, ys. split; [|split; [|exact Sy]].
    - now apply (measured_intro w s (length ls) order js ((a, b) :: qs) A (case_id c) xs fst).
    - now apply (measured_intro w s (length ls) order js ((a, b) :: qs) B (case_id c) ys snd). }
  intros c xs [Lx Mx]. destruct order as [|p order']; [cbn in Lo; lia|]. destruct xs as [|x xs]; [discriminate|].
  destruct (Mx 0 p x eq_refl eq_refl) as [j [d [Er [Eb Eg]]]]. rewrite Nat.mul_0_r, Nat.add_0_r in Er, Eb.
  rewrite Hr, nth_error_map in Er. pose proof (sides_nth (p :: order') 0 p A eq_refl (Forall_inv Pr)) as Sn. cbn [Nat.mul Nat.add] in Sn.
  rewrite Sn in Er. injection Er as <-. destruct (good_nth _ _ _ _ _ 0 _ _ G eq_refl eq_refl) as [B1 _].
  rewrite Nat.mul_0_r, Nat.add_0_r in B1. rewrite B1 in Eb. injection Eb as <-. cbn [fst] in Eg.
  assert (Ik : In c (keys a)) by exact (get_Some_key _ _ _ Eg).
  destruct (Forall2_in_l _ _ _ F2 c Ik) as [x' [Ix Ex]]. assert (Nq : (a, b) :: qs <> []) by discriminate. destruct (case_says _ _ _ Nq Ex) as [<- _]. now apply in_map.
Qed.

(** ** The children and the trees *)

Lemma pythons_own w o ta tb pa pb : pythons w o ta tb = Some (pa, pb) ->
  (forall p, python_a o = Some p -> pa = p) /\ (forall p, python_b o = Some p -> pb = p).
Proof.
  unfold pythons, existing_python. destruct (shared o).
  - destruct (python_a o) as [p|], (python_b o) as [q|]; try (intros H; injection H as <- <-; split; congruence).
    destruct (String.eqb_spec p q) as [->|]; [|discriminate]. intros H; injection H as <- <-; split; congruence.
  - destruct (python_a o) as [p|], (python_b o) as [q|]; intros H; split; intros x E; try discriminate E; injection E as <-;
      repeat match type of H with context [match ?c with _ => _ end] => destruct c; try discriminate H end; congruence.
Qed.

Lemma children w o s r m l j : shuffles w -> perf_ab w o = (s, r) -> In (m, l, j) (runs s) -> started_right w o l j.
Proof.
  intros Sh H I. apply perf_inv in H as [[-> _]|[R [e [ea [eb [P1 [P2 [P3 [[mm [Pa _]]|[s1 [ta [ma [Pa H]]]]]]]]]]]]]; [destruct I| |].
  { apply provision_spec in Pa as [Ra _]. rewrite Ra in I. destruct I. }
  destruct H as [[s2 [mm [x [Pb [U _]]]]]|[s2 [tb [mb [s3 [ps [x [s4 [x4 [x5 [Pb [Bo [U4 [U5 _]]]]]]]]]]]]]].
  { apply provision_spec in Pa as [Ra _]. apply provision_spec in Pb as [Rb _]. apply undo_runs in U as [Ru _].
    rewrite Ru, Rb, Ra in I. destruct I. }
  pose proof (prov_tree_a _ _ _ _ _ _ Pa) as Ta. pose proof (prov_tree_b _ _ _ _ _ _ Pb) as Tb.
  apply provision_spec in Pa as [Ra _]. apply provision_spec in Pb as [Rb _]. cbn in Ra.
  apply undo_runs in U4 as [R4 _]. apply undo_runs in U5 as [R5 _]. rewrite R5, R4 in I.
  destruct (body_spec _ _ _ _ _ _ _ _ _ _ Sh Bo) as [_ [[Rr _]|[pa [pb [ls [ls' [Py [Rr _]]]]]]]].
  { rewrite Rr, Rb, Ra in I. destruct I. }
  assert (Ej : j = jobs_of w (update e ea) (update e eb) ta tb pa pb l).
  { rewrite Rr, Rb, Ra in I. cbn [app] in I. apply in_app_or in I as [I|I]; apply in_map_iff in I as [l' [Q _]]; injection Q as _ <- <-; reflexivity. }
  destruct (pythons_own _ _ _ _ _ _ Py) as [Qa Qb]. subst j. unfold started_right.
  destruct l; cbn [jobs_of where_ python environ own_python own_env]; (split; [assumption|]); (split; [assumption|]); (split; [|apply tree_env_path]);
    intros k Nk D1 D2; now apply tree_env_value.
Qed.

Definition made_list (ma mb : bool) : list label := (if ma then [A] else []) ++ (if mb then [B] else []).

Lemma no_left w o s r : shuffles w -> keep o = false -> (forall l, remove_ok w l = true) -> perf_ab w o = (s, r) ->
  worktrees s = [] /\ ((forall l, add_ok w l = true) -> temps s = []).
Proof.
  intros Sh Kp Rm H. apply perf_inv in H as [[-> _]|[R [e [ea [eb [P1 [P2 [P3 [[mm [Pa _]]|[s1 [ta [ma [Pa H]]]]]]]]]]]]]; [auto| |].
  { apply provision_spec in Pa as [_ [[p [_ [E _]]]|[[_ [_ [E _]]]|[[_ [_ [E _]]]|[_ [_ [_ [_ [E [W _]]]]]]]]]]; try discriminate E.
    rewrite W. split; [reflexivity|]. intros K. rewrite K in E. discriminate. }
  assert (Wa : worktrees s1 = made_list ma false /\ temps s1 = made_list ma false).
  { apply provision_spec in Pa as [_ [[p [_ [_ [-> ->]]]]|[[_ [_ [_ [-> ->]]]]|[[_ [_ [_ [-> [_ [-> ->]]]]]]|[_ [_ [E _]]]]]]]; try discriminate E; auto. }
  destruct Wa as [Wa Wt].
  destruct H as [[s2 [mm [x [Pb [U _]]]]]|[s2 [tb [mb [s3 [ps [x [s4 [x4 [x5 [Pb [Bo [U4 [U5 _]]]]]]]]]]]]]].
  - apply provision_spec in Pb as [_ [[p [_ [E _]]]|[[_ [_ [E _]]]|[[_ [_ [E _]]]|[_ [_ [_ [_ [Ad [W T]]]]]]]]]]; try discriminate E.
    rewrite Wa in W. rewrite Wt in T. unfold clean_up in U. rewrite Kp, Rm in U. destruct ma; cbn in U; injection U as <- _; cbn; rewrite ?W, ?T; cbn;
      (split; [reflexivity|]); intros K; rewrite K in Ad; discriminate.
  - assert (Wb : worktrees s2 = made_list ma mb /\ temps s2 = made_list ma mb).
    { apply provision_spec in Pb as [_ [[p [_ [_ [-> ->]]]]|[[_ [_ [_ [-> ->]]]]|[[_ [_ [_ [-> [_ [-> ->]]]]]]|[_ [_ [E _]]]]]]]; try discriminate E;
        rewrite Wa, Wt; destruct ma; auto. }
    destruct Wb as [Wb Wbt]. destruct (body_spec _ _ _ _ _ _ _ _ _ _ Sh Bo) as [[B1 B2] _]. rewrite <- B1 in Wb. rewrite <- B2 in Wbt.
    unfold clean_up in U4, U5. rewrite Kp, Rm in U4, U5. destruct ma, mb; cbn in U4, U5; injection U4 as <- <-; injection U5 as <- _; cbn;
      rewrite ?Wb, ?Wbt; cbn; auto.
Qed.

Lemma kept w o s r m l j : shuffles w -> keep o = true -> perf_ab w o = (s, r) -> In (m, l, j) (runs s) -> where_ j = Work l -> In l (worktrees s).
Proof.
  intros Sh Kp H I Ew. pose proof (children _ _ _ _ _ _ _ Sh H I) as [Tr _]. rewrite Ew in Tr.
  assert (Nw : needs_worktree o l).
  { unfold tree_of in Tr. destruct (own_dir o l); [discriminate|]. destruct Tr as [[K _]|[_ K]]; [exact K|discriminate]. }
  clear Tr Ew.
  apply perf_inv in H as [[-> _]|[R [e [ea [eb [P1 [P2 [P3 [[mm [Pa _]]|[s1 [ta [ma [Pa H]]]]]]]]]]]]]; [destruct I| |].
  { apply provision_spec in Pa as [Ra _]. rewrite Ra in I. destruct I. }
  destruct H as [[s2 [mm [x [Pb [U _]]]]]|[s2 [tb [mb [s3 [ps [x [s4 [x4 [x5 [Pb [Bo [U4 [U5 _]]]]]]]]]]]]]].
  { apply provision_spec in Pa as [Ra _]. apply provision_spec in Pb as [Rb _]. apply undo_runs in U as [Ru _].
    rewrite Ru, Rb, Ra in I. destruct I. }
  assert (K4 : worktrees s4 = worktrees s3) by (unfold clean_up in U4; rewrite Kp in U4; destruct mb; injection U4 as <- _; reflexivity).
  assert (K5 : worktrees s = worktrees s4) by (unfold clean_up in U5; rewrite Kp in U5; destruct ma; injection U5 as <- _; reflexivity).
  destruct (body_spec _ _ _ _ _ _ _ _ _ _ Sh Bo) as [[B1 _] _]. rewrite K5, K4, B1.
  destruct Nw as [Nd Nc]. destruct l; cbn [own_dir] in Nd.
  - apply provision_spec in Pa as [_ [[p [E _]]|[[_ [E _]]|[[_ [_ [_ [_ [_ [W _]]]]]]|[_ [_ [E _]]]]]]]; try congruence.
    assert (Ia : In A (worktrees s1)) by (rewrite W; apply in_or_app; right; now left).
    apply provision_spec in Pb as [_ [[p [_ [_ [_ ->]]]]|[[_ [_ [_ [_ ->]]]]|[[_ [_ [_ [_ [_ [-> _]]]]]]|[_ [_ [E _]]]]]]]; try congruence;
      try exact Ia; apply in_or_app; now left.
  - apply provision_spec in Pb as [_ [[p [E _]]|[[_ [E _]]|[[_ [_ [_ [_ [_ [W _]]]]]]|[_ [_ [E _]]]]]]]; try congruence.
    rewrite W. apply in_or_app. right. now left.
Qed.

Lemma own_errors w o s : shuffles w -> keep o = false -> perf_ab w o <> (s, Raises Unbound) /\ perf_ab w o <> (s, Raises NoPairs).
Proof.
  intros Sh Kp. assert (G : forall y, perf_ab w o = (s, Raises y) -> y <> Unbound /\ y <> NoPairs); [|split; intros H; now destruct (G _ H)].
  intros y H. apply perf_inv in H as [[_ [H|H]]|[R [e [ea [eb [_ [_ [_ [[m [_ H]]|[s1 [ta [ma [Pa H]]]]]]]]]]]]]; try (injection H as ->; split; discriminate).
  assert (Un : forall mm l s0 x s' x', clean_up w o mm l s0 x = (s', x') -> x' = x \/ x' = Some GitFailed).
  { intros mm l s0 x s' x' U. unfold clean_up in U. rewrite Kp in U. destruct mm; cbn in U; injection U as _ <-; [destruct (remove_ok w l)|]; auto. }
  destruct H as [[s2 [m [x [_ [U H]]]]]|[s2 [tb [mb [s3 [ps [x [s4 [x4 [x5 [Pb [Bo [U4 [U5 H]]]]]]]]]]]]]].
  { apply Un in U as [-> | ->]; injection H as ->; split; discriminate. }
  apply Un in U4. apply Un in U5.
  destruct (body_spec _ _ _ _ _ _ _ _ _ _ Sh Bo) as [_ [[_ [_ Kx]]|[pa [pb [ls [ls' [Py [Rr [K Kx]]]]]]]]].
  - assert (Hy : x5 = Some NoPython \/ x5 = Some ProbeFailed \/ x5 = Some EnvMismatch \/ x5 = Some GitFailed)
      by (destruct U5 as [-> | ->]; [destruct U4 as [-> | ->]|]; intuition).
    destruct Hy as [-> |[-> |[-> | ->]]]; injection H as ->; split; discriminate.
  - assert (Hy : x5 = x \/ x5 = Some GitFailed) by (destruct U5 as [-> | ->]; auto).
    destruct Hy as [-> | ->]; [|injection H as ->; split; discriminate].
    destruct Kx as [-> |[-> | ->]]; try (injection H as ->; split; discriminate).
    destruct (K eq_refl) as [_ [_ [qs [-> G]]]]. pose proof (good_length _ _ _ _ _ G) as L.
    destruct (paired_balanced w o Sh) as [kk [_ [Lo _]]]. unfold summarize in H. destruct qs as [|[a b] qs]; [cbn in L; lia|].
    destruct (summarize_cases ((a, b) :: qs) (keys a)) as [|z] eqn:Sc; [discriminate|]. injection H as ->. clear -Sc.
    revert Sc. induction (keys a) as [|c ids IH]; cbn; [discriminate|]. destruct (summarize_case ((a, b) :: qs) c) as [x|z'] eqn:Ec.
    + destruct (summarize_cases ((a, b) :: qs) ids); [discriminate|]. intros Sc. injection Sc as ->. now apply IH.
    + intros Sc. injection Sc as ->. unfold summarize_case in Ec.
      repeat match type of Ec with context [match ?c with _ => _ end] => destruct c end; try discriminate Ec; injection Ec as <-; split; discriminate.
Qed.

Lemma unanimous c xs ys : says c xs ys -> Forall (fun p => 0 < fst p /\ snd p < fst p)%Q (combine xs ys) -> regression c = false.
Proof.
  intros [_ [_ [[ds [F2 [Md _]]] _]]] F. unfold regression. apply negb_false_iff, Qle_bool_iff.
  assert (D : forall d, In d ds -> (d < 0)%Q).
  { clear Md. revert F F2. generalize (combine xs ys). intros l0 F F2. revert F. induction F2 as [|[a b] d l l' E F2 IH]; intros F x Ix; [destruct Ix|]. cbn [combine] in F.
    cbn [In] in Ix. apply Forall_cons_iff in F as [[Fa Fb] F]. destruct Ix as [<-|Ix]; [|now apply IH].
    cbn in *.
    destruct (Qlt_le_dec d 0) as [L|L]; [exact L|]. exfalso.
    assert (K : (0 <= d * a)%Q) by (apply Qmult_le_0_compat; [exact L|now apply Qlt_le_weak]). rewrite E in K.
    assert (K2 : ((b - a) * 100 < 0)%Q).
    { setoid_replace 0%Q with (0 * 100)%Q by ring. apply Qmult_lt_compat_r; [reflexivity|]. apply (Qplus_lt_l _ _ a). ring_simplify. exact Fb. }
    now apply (Qlt_not_le _ _ K2). }
  destruct Md as [Nd [st [P [_ Ev]]]]. rewrite Ev.
  assert (In1 : forall i, i < length ds -> (nth i st 0 < 0)%Q).
  { intros i L. apply D. apply (Permutation_in _ (Permutation_sym P)), nth_In. now rewrite <- (Permutation_length P). }
  assert (Lp : 0 < length ds) by (destruct ds; [congruence|cbn; lia]).
  pose proof (In1 ((length ds - 1) / 2)) as Q1. pose proof (In1 (length ds / 2)) as Q2.
  assert (L1 : (length ds - 1) / 2 < length ds) by (apply Nat.le_lt_trans with (length ds - 1); [apply Nat.div_le_upper_bound; lia|lia]).
  assert (L2 : length ds / 2 < length ds) by (apply Nat.div_lt; lia).
  specialize (Q1 L1). specialize (Q2 L2). apply Qlt_le_weak.
  apply Qlt_shift_div_r; [reflexivity|]. lra.
Qed.

(** ** Nothing fails *)

Lemma warm_total w js b n : (forall i j, bench w i j <> None) -> forall s, exists s', warm w js b n s = (s', None).
Proof.
  intros Ok. induction n as [|n IH]; intros s; cbn [warm]; [now exists s|]. unfold child at 1.
  destruct (bench w (length (runs s)) (js A)) as [d|] eqn:E; [|now destruct (Ok _ _ E)]. destruct b; [apply IH|].
  unfold child at 1. destruct (bench w (length _) (js B)) as [d'|] eqn:E'; [|now destruct (Ok _ _ E')]. apply IH.
Qed.

Lemma same_keys_eq (d d' : figures) : keys d = keys d' -> same_keys d d' = true.
Proof. intros E. unfold same_keys. rewrite E. apply andb_true_iff. split; apply forallb_forall; intros k I; now apply mem_In. Qed.

Lemma measure_total w js ids order : (forall i j, exists d, bench w i j = Some d /\ fine ids d) -> forall s ps,
  exists s' qs, measure w js order s ps = (s', ps ++ qs, None) /\ length qs = length order /\ Forall (fun q => fine ids (fst q) /\ fine ids (snd q)) qs.
Proof.
  intros Ok. induction order as [|[f g] order IH]; intros s ps; cbn [measure].
  - exists s, []. rewrite app_nil_r. auto.
  - unfold child at 1. destruct (Ok (length (runs s)) (js f)) as [x [-> Fx]]. unfold child at 1.
    match goal with |- context [bench w ?n (js g)] => destruct (Ok n (js g)) as [y [-> Fy]] end.
    set (p := match f with A => (x, y) | B => (y, x) end).
    assert (Fp : fine ids (fst p) /\ fine ids (snd p)) by (unfold p; destruct f; auto).
    assert (Ek : same_keys (fst p) (snd p) = true) by (apply same_keys_eq; destruct Fp as [[-> _] [-> _]]; reflexivity). rewrite Ek.
    match goal with |- context [measure w js order ?s1 ?ps1] => destruct (IH s1 ps1) as [s' [qs [E [L F]]]] end. rewrite E.
    exists s', (p :: qs). rewrite <- app_assoc. cbn. auto.
Qed.

Lemma traverse_total (pr : figures * figures -> figures) ids c qs : In c ids -> Forall (fun q => fine ids (pr q)) qs ->
  exists xs, traverse (fun q => get c (pr q)) qs = Some xs /\ Forall (fun x => 0 < x)%Q xs.
Proof.
  intros I. induction 1 as [|q qs [K P] F [xs [IH Px]]]; [exists []; auto|]. cbn.
  destruct (key_get c (pr q)) as [v E]; [now rewrite K|]. rewrite E, IH. exists (v :: xs). split; [reflexivity|]. constructor; [|exact Px].
  apply get_In in E. exact (proj1 (Forall_forall _ _) P (c, v) E).
Qed.

Lemma cases_total ids qs l : incl l ids -> Forall (fun q => fine ids (fst q) /\ fine ids (snd q)) qs -> exists cs, summarize_cases qs l = inl cs /\ map case_id cs = l.
Proof.
  intros I F. induction l as [|c l IH]; [exists []; auto|]. destruct IH as [cs [E M]]; [intros x Ix; apply I; now right|].
  assert (Ic : In c ids) by (apply I; now left).
  destruct (traverse_total fst ids c qs Ic) as [xs [T1 P1]]; [eapply Forall_impl; [|exact F]; cbn; tauto|].
  destruct (traverse_total snd ids c qs Ic) as [ys [T2 P2]]; [eapply Forall_impl; [|exact F]; cbn; tauto|].
  cbn [summarize_cases]. unfold summarize_case. rewrite T1, T2.
  destruct (existsb (fun a => Qeq_bool a 0) xs) eqn:Z.
  { apply existsb_exists in Z as [a [Ia Za]]. apply Qeq_bool_iff in Za. pose proof (proj1 (Forall_forall _ _) P1 a Ia) as K. cbn in K.
    rewrite Za in K. discriminate. }
  rewrite E. eexists. split; [reflexivity|]. cbn. now rewrite M.
Qed.

Lemma works w o ids : shuffles w -> 0 < rounds o -> (dir_a o = None \/ ref_a o = None) -> (dir_b o = None \/ ref_b o = None) ->
  shared o = true -> (python_a o = None \/ python_b o = None \/ python_a o = python_b o) ->
  (forall vs, In vs [env o; env_a o; env_b o] -> Forall assignment vs) ->
  (forall l, add_ok w l = true) -> (forall l, remove_ok w l = true) -> (forall l, probe_ok w l = true) ->
  (force o = true \/ forall t t', meta w t = meta w t') ->
  (forall i j, exists d, bench w i j = Some d /\ fine ids d) ->
  exists s cs, perf_ab w o = (s, Report (rounds o) cs) /\ map case_id cs = ids.
Proof.
  intros Sh R Da Db Shd Py Env Ad Rm Pb Me Be.
  assert (Ep : forall vs, Forall (fun x => exists k v, name k /\ x = (k ++ "=" ++ v)%string) vs -> forall d, exists d', parse_env vs d = Some d').
  { induction 1 as [|x vs [k [v [Nk ->]]] F IH]; intros d; cbn [parse_env]; [now exists d|]. rewrite (split_some k v (proj2 Nk)).
    destruct k as [|c k]; [now destruct (proj1 Nk)|]. apply IH. }
  destruct (Ep _ (Env (env o) ltac:(cbn; auto)) []) as [e E1]. destruct (Ep _ (Env (env_a o) ltac:(cbn; auto)) []) as [ea E2].
  destruct (Ep _ (Env (env_b o) ltac:(cbn; auto)) []) as [eb E3].
  unfold perf_ab. rewrite E1, E2, E3.
  assert (C : (rounds o =? 0) || match dir_a o, ref_a o with Some _, Some _ => true | _, _ => false end
     || match dir_b o, ref_b o with Some _, Some _ => true | _, _ => false end || (force o && negb (shared o)) = false).
  { rewrite Shd. cbn. rewrite andb_false_r, orb_false_r. replace (rounds o =? 0) with false by (symmetry; apply Nat.eqb_neq; lia).
    destruct Da as [-> | ->], Db as [-> | ->]; destruct (dir_a o), (dir_b o); reflexivity || (destruct (ref_a o); reflexivity). }
  rewrite C.
  assert (Pv : forall dir ref l s, exists s' t m, provision w dir ref l s = (s', Some t, m)).
  { intros dir ref l s. unfold provision. rewrite Ad. destruct dir; [|destruct (is_current ref)]; do 3 eexists; reflexivity. }
  destruct (Pv (dir_a o) (default_ref (ref_a o) "dev") A fresh) as [s1 [ta [ma Ea]]]. rewrite Ea.
  destruct (Pv (dir_b o) (default_ref (ref_b o) "CURRENT") B s1) as [s2 [tb [mb Eb]]]. rewrite Eb.
  assert (Bo : exists s3 qs, body w o (update e ea) (update e eb) ta tb s2 = (s3, Some qs, None) /\ length qs = rounds o /\
     Forall (fun q => fine ids (fst q) /\ fine ids (snd q)) qs).
  { unfold body. assert (Pe : exists pa pb, pythons w o ta tb = Some (pa, pb)).
    { unfold pythons. rewrite Shd. destruct (python_a o) as [p|], (python_b o) as [q|]; eauto.
      destruct Py as [Py|[Py|Py]]; try discriminate Py. injection Py as <-. rewrite String.eqb_refl. eauto. }
    destruct Pe as [pa [pb ->]]. rewrite !Pb. cbn [negb andb].
    assert (Cm : shared o && negb (force o) && negb (eqd (meta w ta) (meta w tb)) = false).
    { destruct Me as [-> |Me]; [cbn; now rewrite andb_false_r|]. rewrite (Me ta tb), eqd_refl. now rewrite andb_false_r. }
    rewrite Cm.
    match goal with |- context [warm w ?js ?b ?n s2] => destruct (warm_total w js b n) with (s := s2) as [s3 Ew];
      [intros i j K; destruct (Be i j) as [d [Q _]]; congruence|]; rewrite Ew;
      destruct (measure_total w js ids (shuffle w (base_order (rounds o))) Be s3 []) as [s4 [qs [Em [L F]]]]; rewrite Em end.
    exists s4, qs. split; [reflexivity|]. split; [|exact F]. rewrite L. destruct (paired_balanced w o Sh) as [kk [_ [Lo _]]]. exact Lo. }
  destruct Bo as [s3 [qs [-> [Lq F]]]].
  assert (Un : forall m l s, exists s', clean_up w o m l s None = (s', None)).
  { intros m l s. unfold clean_up. rewrite Rm. destruct m; cbn; [destruct (keep o)|]; eexists; reflexivity. }
  destruct (Un mb B s3) as [s4 ->]. destruct (Un ma A s4) as [s5 ->].
  destruct qs as [|[a b] qs]; [cbn in Lq; lia|]. unfold summarize.
  pose proof (Forall_inv F) as [[Ka _] _]. cbn [fst] in Ka. rewrite Ka.
  destruct (cases_total ids ((a, b) :: qs) ids (incl_refl _) F) as [cs [Ec M]]. rewrite Ec. exists s5, cs. auto.
Qed.

Lemma parse_all vs : forall d d', parse_env vs d = Some d' -> Forall assignment vs.
Proof.
  induction vs as [|x vs IH]; intros d d' H; [constructor|]. cbn [parse_env] in H.
  destruct (split_eq x) as [[k v]|] eqn:E; [|discriminate]. apply split_inv in E as [-> Nk]. destruct k as [|c k]; [discriminate|].
  constructor; [|eapply IH; exact H]. exists (String c k), v. repeat split; [discriminate|exact Nk].
Qed.

Lemma rejects w o : ~ good_args o -> exists e, perf_ab w o = (fresh, Raises e) /\ (e = BadArgs \/ e = BadEnv).
Proof.
  intros Ng. unfold perf_ab. match goal with |- context [if ?b then _ else _] => destruct b eqn:C end; [eauto|].
  apply orb_false_iff in C as [C C4]. apply orb_false_iff in C as [C C3]. apply orb_false_iff in C as [C1 C2].
  destruct (parse_env (env o) []) as [e|] eqn:E1; [|eauto]. destruct (parse_env (env_a o) []) as [ea|] eqn:E2; [|eauto].
  destruct (parse_env (env_b o) []) as [eb|] eqn:E3; [|eauto]. destruct Ng. apply Nat.eqb_neq in C1.
  split; [lia|]. split; [destruct (dir_a o), (ref_a o); auto; discriminate|]. split; [destruct (dir_b o), (ref_b o); auto; discriminate|].
  split; [destruct (force o), (shared o); auto; discriminate|]. repeat split; eapply parse_all; eassumption.
Qed.
