(* Proofs about the profiling registry (C40, C41). *)

From Coq Require Import String List Arith Bool Lia Permutation.
From Verif Require Import Dict ProfilingModel ProfilingSpec.
Import ListNotations.

(** ** Merging *)

(** [out] was taken from the fronts of the queues [qs], leaving [qs'], always a least head. *)
Inductive taken : list (list sample) -> list sample -> list (list sample) -> Prop :=
| taken_nil qs : taken qs [] qs
| taken_cons qs i x q out qs' :
    nth_error qs i = Some (x :: q) ->
    (forall j y p, nth_error qs j = Some (y :: p) -> s_time x <= s_time y) ->
    taken (set_nth i q qs) out qs' ->
    taken qs (x :: out) qs'.

Lemma set_nth_length {A} i (x : A) l : length (set_nth i x l) = length l.
Proof. revert i; induction l as [|y r IH]; intros [|i]; cbn; auto. Qed.

Lemma nth_error_set_nth {A} i j (x : A) l :
  i < length l -> nth_error (set_nth i x l) j = if i =? j then Some x else nth_error l j.
Proof.
  revert i j; induction l as [|y r IH]; intros i j L; [cbn in L; lia|].
  destruct i as [|i], j as [|j]; cbn; auto. apply IH. cbn in L. lia.
Qed.

Lemma nth_error_lt {A} (l : list A) i x : nth_error l i = Some x -> i < length l.
Proof. intros E. apply nth_error_Some. congruence. Qed.

Lemma heappop_spec h e r :
  heappop h = Some (e, r) ->
  Permutation h (e :: r) /\ (forall e', In e' h -> fst (fst e) <= fst (fst e')).
Proof.
  revert e r; induction h as [|a h IH]; intros e r E; [discriminate|]. cbn in E.
  destruct (heappop h) as [[b h']|] eqn:Eh.
  - destruct (IH b h' eq_refl) as [P M].
    destruct (entry_lt b a) eqn:L; injection E as <- <-.
    + split.
      * rewrite P. apply perm_swap.
      * intros e' [<-|I]; [|auto]. destruct b as [[t s] i], a as [[t' s'] i']. cbn in *.
        apply orb_true_iff in L. destruct L as [L|L].
        -- apply Nat.ltb_lt in L. lia.
        -- apply andb_true_iff in L. destruct L as [L _]. apply Nat.eqb_eq in L. lia.
    + split; [reflexivity|]. intros e' [<-|I]; [lia|].
      specialize (M _ I). destruct b as [[t s] i], a as [[t' s'] i']. cbn in *.
      apply orb_false_iff in L. destruct L as [L _]. apply Nat.ltb_ge in L. lia.
  - injection E as <- <-. destruct h as [|c h]; [|cbn in Eh; destruct (heappop h) as [[? ?]|]; [destruct (entry_lt _ _)|]; discriminate].
    split; [reflexivity|]. intros e' [<-|[]]. lia.
Qed.

Lemma heappop_None h : heappop h = None -> h = [].
Proof.
  destruct h as [|a h]; auto. cbn. destruct (heappop h) as [[b r]|]; [destruct (entry_lt b a)|]; discriminate.
Qed.

Definition heads_from (k : nat) (qs : list (list sample)) :=
  flat_map (fun p : nat * list sample => match snd p with x :: _ => [(s_time x, s_seq x, fst p)] | [] => [] end)
           (combine (seq k (length qs)) qs).

Lemma heads_from_cons k q qs :
  heads_from k (q :: qs) = (match q with x :: _ => [(s_time x, s_seq x, k)] | [] => [] end) ++ heads_from (S k) qs.
Proof. reflexivity. Qed.

Lemma In_heads_from k qs t s i :
  In (t, s, i) (heads_from k qs) <->
  k <= i /\ exists x q, nth_error qs (i - k) = Some (x :: q) /\ t = s_time x /\ s = s_seq x.
Proof.
  revert k; induction qs as [|q qs IH]; intros k.
  - split; [intros []|]. intros (L & x & q & E & _). destruct (i - k); discriminate.
  - rewrite heads_from_cons, in_app_iff, IH. split.
    + intros [I|(L & x & q' & E & Et & Es)].
      * destruct q as [|x q]; [destruct I|]. destruct I as [I|[]]. injection I as <- <- <-.
        split; [lia|]. exists x, q. rewrite Nat.sub_diag. cbn. auto.
      * split; [lia|]. exists x, q'. split; [|auto].
        replace (i - k) with (S (i - S k)) by lia. exact E.
    + intros (L & x & q' & E & Et & Es). destruct (Nat.eq_dec i k) as [->|N].
      * rewrite Nat.sub_diag in E. injection E as ->. left. left. congruence.
      * right. split; [lia|]. exists x, q'. split; [|auto].
        replace (i - k) with (S (i - S k)) in E by lia. exact E.
Qed.

Lemma heads_set_nth k i x q qs :
  nth_error qs i = Some (x :: q) ->
  Permutation (heads_from k qs)
    ((s_time x, s_seq x, k + i) :: heads_from k (set_nth i [] qs)) /\
  Permutation (heads_from k (set_nth i q qs))
    ((match q with y :: _ => [(s_time y, s_seq y, k + i)] | [] => [] end) ++ heads_from k (set_nth i [] qs)).
Proof.
  revert k i; induction qs as [|p qs IH]; intros k [|i] E; try discriminate.
  - injection E as ->. cbn [set_nth]. rewrite !heads_from_cons, Nat.add_0_r. cbn [app]. split; reflexivity.
  - cbn [nth_error] in E. destruct (IH (S k) i E) as [A B]. cbn [set_nth].
    rewrite !heads_from_cons. replace (k + S i) with (S k + i) by lia. split.
    + rewrite A. symmetry. apply Permutation_middle.
    + rewrite B. rewrite !app_assoc. apply Permutation_app_tail. apply Permutation_app_comm.
Qed.

Lemma total_samples_set_nth i (x : sample) q qs :
  nth_error qs i = Some (x :: q) ->
  length (concat qs) = S (length (concat (set_nth i q qs))).
Proof.
  revert i; induction qs as [|p qs IH]; intros [|i] E; try discriminate.
  - injection E as ->. cbn. reflexivity.
  - cbn in E. cbn [set_nth concat]. rewrite !app_length, (IH i E). lia.
Qed.

Lemma heads_nil qs k : heads_from k qs = [] -> concat qs = [].
Proof.
  revert k; induction qs as [|q qs IH]; intros k E; [reflexivity|].
  rewrite heads_from_cons in E. apply app_eq_nil in E. destruct E as [E1 E2].
  destruct q; [|discriminate]. cbn. eauto.
Qed.

Lemma merge_spec n : forall heap qs out qs',
  Permutation heap (heads_from 0 qs) ->
  merge n heap qs = (out, qs') ->
  taken qs out qs' /\ length out = Nat.min n (length (concat qs)).
Proof.
  induction n as [|n IH]; intros heap qs out qs' P E; cbn in E.
  - injection E as <- <-. split; [constructor|]. reflexivity.
  - destruct (heappop heap) as [[[[t s] i] rest]|] eqn:Eh.
    + destruct (heappop_spec _ _ _ Eh) as [Ph M].
      assert (I : In (t, s, i) (heads_from 0 qs)).
      { eapply Permutation_in; [exact P|]. eapply Permutation_in; [symmetry; exact Ph|]. left. reflexivity. }
      apply In_heads_from in I. destruct I as (_ & x & q & En & -> & ->).
      rewrite Nat.sub_0_r in En.
      rewrite (nth_error_nth _ _ [] En) in E.
      destruct (heads_set_nth 0 i x q qs En) as [Ha Hb]. rewrite Nat.add_0_l in Ha, Hb.
      assert (Pr : Permutation rest (heads_from 0 (set_nth i [] qs))).
      { eapply Permutation_cons_inv. etransitivity; [symmetry; exact Ph|]. etransitivity; [exact P|]. exact Ha. }
      remember (match q with
                | [] => rest
                | y :: _ => rest ++ [(s_time y, s_seq y, i)]
                end) as heap'.
      assert (P' : Permutation heap' (heads_from 0 (set_nth i q qs))).
      { rewrite Hb. subst heap'. destruct q as [|y q]; [exact Pr|].
        rewrite Permutation_app_comm. cbn. constructor. exact Pr. }
      destruct (merge n heap' (set_nth i q qs)) as [out0 qs0] eqn:Em.
      injection E as <- <-.
      destruct (IH _ _ _ _ P' Em) as [T L].
      split.
      * econstructor; [exact En| |exact T].
        intros j y p Ej.
        apply (M (s_time y, s_seq y, j)).
        eapply Permutation_in; [symmetry; exact P|]. apply In_heads_from.
        split; [lia|]. exists y, p. rewrite Nat.sub_0_r. auto.
      * cbn [length]. rewrite L, (total_samples_set_nth _ _ _ _ En). lia.
    + injection E as <- <-. apply heappop_None in Eh. subst heap.
      apply Permutation_nil in P. rewrite (heads_nil _ _ P). split; [constructor|reflexivity].
Qed.

Lemma filter_single qs (q : list sample) :
  filter (fun q => match q with [] => false | _ => true end) qs = [q] ->
  exists a b, qs = a ++ q :: b /\ q <> [] /\ (forall p, In p a \/ In p b -> p = []).
Proof.
  induction qs as [|p qs IH]; intros E; [discriminate|]. destruct p as [|x p].
  - cbn in E. destruct (IH E) as (a & b & -> & N & H). exists ([] :: a), b.
    split; [reflexivity|]. split; [auto|]. intros p [[<-|I]|I]; auto.
  - cbn in E. injection E as E1 E2. subst q. exists [], qs. split; [reflexivity|]. split; [discriminate|].
    intros p' [[]|I].
    destruct p' as [|y p']; [reflexivity|]. exfalso.
    assert (K : In (y :: p') (filter (fun q => match q with [] => false | _ => true end) qs)) by (apply filter_In; auto).
    rewrite E2 in K. destruct K.
Qed.

Lemma set_nth_app {A} (a b : list A) x y : set_nth (length a) x (a ++ y :: b) = a ++ x :: b.
Proof. induction a; cbn; congruence. Qed.

Lemma concat_all_nil (l : list (list sample)) : (forall p, In p l -> p = []) -> concat l = [].
Proof.
  induction l as [|p l IH]; intros H; [reflexivity|]. cbn. rewrite (H p); [|left; reflexivity].
  apply IH. intros; apply H; right; auto.
Qed.

Lemma taken_single n : forall q a b,
  (forall p, In p a \/ In p b -> p = []) ->
  taken (a ++ q :: b) (firstn n q) (a ++ skipn n q :: b).
Proof.
  induction n as [|n IH]; intros q a b H; [constructor|].
  destruct q as [|x q]; [constructor|]. cbn [firstn skipn].
  apply taken_cons with (i := length a) (q := q).
  - rewrite nth_error_app2, Nat.sub_diag by lia. reflexivity.
  - intros j y p E. destruct (Nat.eq_dec j (length a)) as [->|N].
    + rewrite nth_error_app2, Nat.sub_diag in E by lia. injection E as -> ->. lia.
    + exfalso. destruct (Nat.lt_ge_cases j (length a)) as [L|G].
      * rewrite nth_error_app1 in E by lia. apply nth_error_In in E. discriminate (H _ (or_introl E)).
      * rewrite nth_error_app2 in E by lia. destruct (j - length a) eqn:D; [lia|]. cbn in E.
        apply nth_error_In in E. discriminate (H _ (or_intror E)).
  - rewrite set_nth_app. apply IH. exact H.
Qed.

Lemma take_samples_spec n qs out qs' :
  take_samples n qs = (out, qs') ->
  taken qs out qs' /\ length out = Nat.min n (length (concat qs)).
Proof.
  unfold take_samples.
  destruct (filter (fun q => match q with [] => false | _ => true end) qs) as [|q [|q' l]] eqn:F; intros E.
  - eapply merge_spec; [|exact E]. reflexivity.
  - injection E as <- <-. destruct (filter_single _ _ F) as (a & b & -> & N & H).
    assert (Hm : map (fun q0 : list sample => match q0 with [] => [] | _ :: _ => skipn n q0 end) (a ++ q :: b) = a ++ skipn n q :: b).
    { rewrite map_app. cbn [map]. f_equal; [|f_equal].
      - rewrite <- (map_id a) at 2. apply map_ext_in. intros p I. rewrite (H p (or_introl I)). reflexivity.
      - destruct q; [contradiction|]. reflexivity.
      - rewrite <- (map_id b) at 2. apply map_ext_in. intros p I. rewrite (H p (or_intror I)). reflexivity. }
    rewrite Hm. split; [apply taken_single; exact H|].
    rewrite firstn_length, concat_app. cbn [concat].
    rewrite (concat_all_nil a) by auto. rewrite (concat_all_nil b) by auto. rewrite app_nil_r. reflexivity.
  - eapply merge_spec; [|exact E]. reflexivity.
Qed.

Lemma taken_length qs out qs' : taken qs out qs' -> length qs' = length qs.
Proof. induction 1 as [|qs i x q out qs' E M T IH]; [reflexivity|]. rewrite IH. apply set_nth_length. Qed.

(** Each queue splits into what was taken from it, in order, and what is left. *)
Lemma taken_split (tag : nat -> sample -> bool) qs out qs' :
  taken qs out qs' ->
  (forall i q x, nth_error qs i = Some q -> In x q -> tag i x = true) ->
  (forall i j x, tag i x = true -> tag j x = true -> i = j) ->
  forall i q, nth_error qs i = Some q ->
  exists q', nth_error qs' i = Some q' /\ q = filter (tag i) out ++ q'.
Proof.
  intros T. induction T as [qs|qs j x q0 out qs' E M T IH]; intros HT HX i q Ei.
  - exists q. auto.
  - pose proof (nth_error_lt _ _ _ E) as Lj.
    assert (HT' : forall i q x, nth_error (set_nth j q0 qs) i = Some q -> In x q -> tag i x = true).
    { intros i' q' x' E' I'. rewrite nth_error_set_nth in E' by exact Lj.
      destruct (Nat.eqb_spec j i') as [<-|N].
      - injection E' as <-. eapply HT; [exact E|]. right. exact I'.
      - eapply HT; eauto. }
    specialize (IH HT' HX).
    assert (Hx : tag j x = true) by (eapply HT; [exact E|left; reflexivity]).
    destruct (Nat.eq_dec i j) as [->|N].
    + rewrite E in Ei. injection Ei as <-.
      destruct (IH j q0) as (q' & E' & Eq).
      { rewrite nth_error_set_nth, Nat.eqb_refl by exact Lj. reflexivity. }
      exists q'. split; [exact E'|]. cbn. rewrite Hx, Eq. reflexivity.
    + destruct (IH i q) as (q' & E' & Eq).
      { rewrite nth_error_set_nth by exact Lj. destruct (Nat.eqb_spec j i); [congruence|]. exact Ei. }
      exists q'. split; [exact E'|]. cbn. destruct (tag i x) eqn:Ht; [|exact Eq].
      exfalso. apply N. eapply HX; eauto.
Qed.

Lemma taken_subset qs out qs' : taken qs out qs' -> forall x, In x (concat qs) <-> In x out \/ In x (concat qs').
Proof.
  induction 1 as [qs|qs i y q out qs' E M T IH]; intros x; [cbn; tauto|].
  assert (K : In x (concat qs) <-> x = y \/ In x (concat (set_nth i q qs))).
  { clear - E. revert i E; induction qs as [|p qs IH]; intros [|i] E; try discriminate.
    - injection E as ->. cbn. rewrite !in_app_iff. cbn. intuition congruence.
    - cbn in E. cbn. rewrite !in_app_iff, (IH _ E). tauto. }
  rewrite K, IH. cbn. intuition congruence.
Qed.

Lemma in_time_order_tail x l : in_time_order (x :: l) -> in_time_order l.
Proof. intros [_ H]. exact H. Qed.

(** From sorted queues, the earliest samples, in order. *)
Lemma taken_earliest qs out qs' :
  taken qs out qs' -> (forall q, In q qs -> in_time_order q) ->
  in_time_order out /\ (forall x y, In x out -> In y (concat qs') -> s_time x <= s_time y).
Proof.
  induction 1 as [qs|qs i x q out qs' E M T IH]; intros S.
  - split; [exact I|]. intros x y [].
  - pose proof (nth_error_lt _ _ _ E) as Li.
    assert (S' : forall q', In q' (set_nth i q qs) -> in_time_order q').
    { intros q' Iq. apply In_nth_error in Iq. destruct Iq as [j Ej].
      rewrite nth_error_set_nth in Ej by exact Li. destruct (i =? j) eqn:Eij; [apply Nat.eqb_eq in Eij; subst j|].
      - injection Ej as <-. apply (in_time_order_tail x). apply S. eapply nth_error_In; eauto.
      - apply S. eapply nth_error_In; eauto. }
    destruct (IH S') as [S1 S2].
    assert (Least : forall y, In y (concat (set_nth i q qs)) -> s_time x <= s_time y).
    { intros y Iy. apply in_concat in Iy. destruct Iy as (p & Ip & Iy).
      apply In_nth_error in Ip. destruct Ip as [j Ej].
      rewrite nth_error_set_nth in Ej by exact Li. destruct (i =? j) eqn:Eij; [apply Nat.eqb_eq in Eij; subst j|].
      - injection Ej as <-. pose proof (S _ (nth_error_In _ _ E)) as [H _]. apply H. exact Iy.
      - destruct p as [|z p]; [destruct Iy|]. etransitivity; [eapply M; exact Ej|].
        destruct Iy as [<-|Iy]; [lia|].
        pose proof (S _ (nth_error_In _ _ Ej)) as [H _]. apply H. exact Iy. }
    split.
    + split; [|exact S1]. intros y Iy. apply Least. apply (proj2 (taken_subset _ _ _ T y)). left. exact Iy.
    + intros a b [<-|Ia] Ib; [|auto]. apply Least. apply (proj2 (taken_subset _ _ _ T b)). right. exact Ib.
Qed.

(** ** The endpoints of the registry *)

Lemma get_map_values {V W} (f : nat -> V -> W) d k : get k (map_values f d) = option_map (f k) (get k d).
Proof.
  induction d as [|[j v] d IH]; cbn; [reflexivity|]. destruct (dec k j) as [<-|N]; [reflexivity|]. exact IH.
Qed.

Lemma get_on f id k d : get k (on id f d) = if dec k id then option_map f (get k d) else get k d.
Proof.
  unfold on. destruct (get id d) as [m|] eqn:E.
  - rewrite get_put. destruct (dec k id) as [->|N]; [rewrite E|]; reflexivity.
  - destruct (dec k id) as [->|N]; [rewrite E|]; reflexivity.
Qed.

Definition refill (d : list (nat * metrics)) (qs : list (list sample)) : list (nat * metrics) :=
  map (fun pq => (fst (fst pq), set_samples (snd (fst pq)) (snd pq))) (combine d qs).

Lemma get_refill d qs k :
  length qs = length d ->
  match get k d with
  | Some m => exists q, get k (refill d qs) = Some (set_samples m q)
  | None => get k (refill d qs) = None
  end.
Proof.
  revert qs; induction d as [|[j m] d IH]; intros [|q qs] L; try discriminate; [reflexivity|].
  cbn. destruct (dec k j) as [<-|N]; [eauto|]. apply IH. cbn in L. lia.
Qed.

Lemma trace_batch_shape n now r r' out :
  trace_batch n now r = (r', out) ->
  exists qs',
    taken (map (fun p => m_samples (snd p)) (r_pubs (expire now r)) ++ map (fun p => m_samples (snd p)) (r_subs (expire now r))) out qs' /\
    length out = Nat.min (Nat.max 1 n) (length (buffered (expire now r))) /\
    r' = mkRegistry (refill (r_pubs (expire now r)) (firstn (length (r_pubs (expire now r))) qs'))
                    (refill (r_subs (expire now r)) (skipn (length (r_pubs (expire now r))) qs'))
                    (r_control (expire now r)) (r_expires (expire now r)) (r_last (expire now r)).
Proof.
  unfold trace_batch. destruct (take_samples _ _) as [out0 qs'] eqn:E. intros H. injection H as <- <-.
  destruct (take_samples_spec _ _ _ _ E) as [T L].
  exists qs'. split; [exact T|]. split; [|reflexivity].
  rewrite L. unfold buffered. rewrite concat_app, !flat_map_concat_map. reflexivity.
Qed.

Definition onf (c : control) (s : side) (id : nat) (topic : string) (n : mname) : bool :=
  (c_enabled c && selected (match s with Pub => c_pub_topics c | Sub => c_sub_topics c end)
                           (match s with Pub => c_pub_ids c | Sub => c_sub_ids c end) id topic) && wants c n.

Lemma onf_traces c s id topic n : onf c s id topic n = true <-> traces c s id topic n.
Proof.
  unfold onf, traces, selected, wants. rewrite !andb_true_iff.
  set (T := match s with Pub => c_pub_topics c | Sub => c_sub_topics c end).
  set (D := match s with Pub => c_pub_ids c | Sub => c_sub_ids c end).
  assert (HT : (match T with [] => true | _ :: _ => mem topic T end = true) <-> (T = [] \/ In topic T)).
  { destruct T as [|t T']; [intuition|]. rewrite mem_In. intuition discriminate. }
  assert (HD : (match D with [] => true | _ :: _ => mem id D end = true) <-> (D = [] \/ In id D)).
  { destruct D as [|t D']; [intuition|]. rewrite mem_In. intuition discriminate. }
  assert (HM : ((match c_metrics c with Some l => mem n l | None => true end) = true) <-> (forall l, c_metrics c = Some l -> In n l)).
  { destruct (c_metrics c) as [l|].
    - rewrite mem_In. split; [intros H l' E; injection E as <-; exact H|auto].
    - split; [discriminate|reflexivity]. }
  rewrite HT, HD, HM. tauto.
Qed.

Definition name1 (s : side) := match s with Pub => publish_delta_ns | Sub => lease_time_ns end.
Definition name2 (s : side) := match s with Pub => backpressure_wait_ns | Sub => user_span_ns end.
Definition counting (s : side) (m : metrics) := match s with Pub => m_one m | Sub => m_one m || m_two m end.

Definition Glob (h : list op) (r : registry) : Prop :=
  r_control r = fst (in_force h) /\ r_expires r = snd (in_force h) /\
  (match r_last r with Some _ => true | None => false end) = snapshot_taken h.

Definition Good (s : side) (id : nat) (h : list op) (m : metrics) : Prop :=
  registered s id h = Some (m_topic m) /\
  m_total m = total s id h /\
  m_total m = m_last m + recent s id h /\
  m_mod m = rate h /\
  m_one m = onf (fst (in_force h)) s id (m_topic m) (name1 s) /\
  m_two m = onf (fst (in_force h)) s id (m_topic m) (name2 s) /\
  (counting s m = true -> m_count m = ordinal s id h) /\
  (s = Pub -> m_one m = true -> m_ts m = last_traced id h).

Definition InvE (s : side) (id : nat) (h : list op) (r : registry) : Prop :=
  match get id (endpoints s r) with
  | None => registered s id h = None
  | Some m => Good s id h m
  end.

Lemma Glob_expire h r now o :
  Glob h r -> (o = Enabled now \/ exists n, o = Batch n now) ->
  Glob (o :: h) (expire now r).
Proof.
  intros (C & X & L) O.
  assert (F : in_force (o :: h) = if expired (snd (in_force h)) now then (disabled, None) else in_force h)
    by (destruct O as [->|[n ->]]; reflexivity).
  assert (N : snapshot_taken (o :: h) = snapshot_taken h) by (destruct O as [->|[n ->]]; reflexivity).
  unfold Glob. rewrite F, N. unfold expire. rewrite X. unfold expired.
  destruct (snd (in_force h)) as [t|] eqn:Es; [|rewrite Es; auto].
  destruct (Nat.ltb_spec now t).
  - replace (t <=? now) with false by (symmetry; apply Nat.leb_gt; lia). rewrite Es; auto.
  - replace (t <=? now) with true by (symmetry; apply Nat.leb_le; lia).
    cbn. auto.
Qed.

Lemma Good_keep s id h o m q :
  registers s id o = None -> removes s id o = false -> is_event s id o = false ->
  (forall now, o <> Snapshot now) -> in_force (o :: h) = in_force h -> restarts s id h o = false ->
  (forall i sq now, s = Pub -> o = Publish i sq now -> i <> id) ->
  Good s id h m -> Good s id (o :: h) (set_samples m q).
Proof.
  intros R V E S F K P (G1 & G2 & G3 & G4 & G5 & G6 & G7 & G8).
  assert (T : total s id (o :: h) = total s id h) by (cbn; rewrite R, E; reflexivity).
  assert (C : recent s id (o :: h) = recent s id h).
  { destruct o; try (cbn; cbn in R, E; rewrite R, E; reflexivity). exfalso. eapply S; reflexivity. }
  assert (O : ordinal s id (o :: h) = ordinal s id h).
  { change (ordinal s id (o :: h)) with (if restarts s id h o then 0 else (if is_event s id o then 1 else 0) + ordinal s id h).
    rewrite K, E. reflexivity. }
  unfold Good. cbn [set_samples m_topic m_total m_last m_mod m_count m_ts m_one m_two].
  rewrite T, C, O, F. unfold rate. rewrite F.
  refine (conj _ (conj G2 (conj G3 (conj G4 (conj G5 (conj G6 (conj _ _))))))).
  - cbn [registered]. rewrite R, V. exact G1.
  - unfold counting in *. destruct s; exact G7.
  - intros -> H. cbn [last_traced].
    rewrite K. rewrite G8 by auto. destruct o; try reflexivity.
    destruct (Nat.eqb_spec id0 id) as [->|N]; [|reflexivity].
    exfalso. exact (P id seq now eq_refl eq_refl eq_refl).
Qed.

Lemma Good_samples s id h m q : Good s id h m -> Good s id h (set_samples m q).
Proof. intros G. unfold Good, set_samples in *. cbn. destruct s; exact G. Qed.

(** Tracing starts afresh; the counts stay. *)
Lemma Good_apply s id h o m c q :
  registers s id o = None -> removes s id o = false -> is_event s id o = false ->
  (forall now, o <> Snapshot now) -> fst (in_force (o :: h)) = c -> restarts s id h o = true ->
  Good s id h m ->
  Good s id (o :: h) (match s with Pub => apply_to_publisher c id (set_samples m q)
                              | Sub => apply_to_subscriber c id (set_samples m q) end).
Proof.
  intros R V E S F K (G1 & G2 & G3 & G4 & G5 & G6 & G7 & G8).
  assert (T : total s id (o :: h) = total s id h) by (cbn; rewrite R, E; reflexivity).
  assert (C : recent s id (o :: h) = recent s id h).
  { destruct o; try (cbn; cbn in R, E; rewrite R, E; reflexivity). exfalso. eapply S; reflexivity. }
  assert (O : ordinal s id (o :: h) = 0).
  { change (ordinal s id (o :: h)) with (if restarts s id h o then 0 else (if is_event s id o then 1 else 0) + ordinal s id h).
    rewrite K. reflexivity. }
  assert (Rg : registered s id (o :: h) = registered s id h) by (cbn; rewrite R, V; reflexivity).
  unfold Good. rewrite T, C, O, Rg, F. unfold rate. rewrite F.
  destruct s; cbn [apply_to_publisher apply_to_subscriber set_samples m_topic m_total m_last m_mod m_count m_ts m_one m_two].
  - refine (conj G1 (conj G2 (conj G3 (conj eq_refl (conj eq_refl (conj eq_refl (conj (fun _ => eq_refl) _))))))).
    intros _ _. cbn [last_traced]. rewrite K. reflexivity.
  - refine (conj G1 (conj G2 (conj G3 (conj eq_refl (conj eq_refl (conj eq_refl (conj (fun _ => eq_refl) _))))))).
    discriminate.
Qed.

Lemma InvE_expire s id h r now o :
  Glob h r -> InvE s id h r -> (o = Enabled now \/ exists n, o = Batch n now) ->
  InvE s id (o :: h) (expire now r).
Proof.
  intros (C & X & L) I O.
  assert (F : in_force (o :: h) = if expired (snd (in_force h)) now then (disabled, None) else in_force h)
    by (destruct O as [->|[n ->]]; reflexivity).
  assert (K : restarts s id h o = expired (snd (in_force h)) now)
    by (destruct O as [->|[n ->]]; destruct s; reflexivity).
  assert (R : registers s id o = None) by (destruct O as [->|[n ->]]; destruct s; reflexivity).
  assert (V : removes s id o = false) by (destruct O as [->|[n ->]]; destruct s; reflexivity).
  assert (E : is_event s id o = false) by (destruct O as [->|[n ->]]; destruct s; reflexivity).
  assert (S : forall t, o <> Snapshot t) by (intros t; destruct O as [->|[n ->]]; discriminate).
  assert (P : forall i sq t, s = Pub -> o = Publish i sq t -> i <> id) by (intros i sq t _ ->; destruct O as [O|[n O]]; discriminate).
  unfold InvE in *.
  assert (D : (exists t, r_expires r = Some t /\ t <= now /\ expired (snd (in_force h)) now = true /\ expire now r = set_trace_control disabled now r) \/
              (expired (snd (in_force h)) now = false /\ expire now r = r)).
  { unfold expire, expired. rewrite <- X. destruct (r_expires r) as [t|]; [|right; auto].
    destruct (Nat.ltb_spec now t).
    - right. split; [apply Nat.leb_gt; lia|reflexivity].
    - left. exists t. repeat split; auto. apply Nat.leb_le. lia. }
  destruct D as [(t & _ & _ & Ex & ->)|(Ex & ->)]; rewrite Ex in F, K.
  - replace (get id (endpoints s (set_trace_control disabled now r)))
      with (option_map (fun m => match s with Pub => apply_to_publisher disabled id (set_samples m [])
                                        | Sub => apply_to_subscriber disabled id (set_samples m []) end) (get id (endpoints s r)))
      by (destruct s; cbn; rewrite get_map_values; reflexivity).
    destruct (get id (endpoints s r)) as [m|] eqn:G; cbn [option_map].
    + apply Good_apply; auto. rewrite F. reflexivity.
    + cbn. rewrite R, V. exact I.
  - destruct (get id (endpoints s r)) as [m|] eqn:G.
    + replace m with (set_samples m (m_samples m)) by (destruct m; reflexivity). apply Good_keep; auto.
    + cbn. rewrite R, V. exact I.
Qed.

Lemma set_same m : m = set_samples m (m_samples m).
Proof. destruct m; reflexivity. Qed.

Lemma wait_samples maxlen id m w seq now : exists q, record_backpressure_wait maxlen id m w seq now = set_samples m q.
Proof. unfold record_backpressure_wait. destruct m as [? ? ? ? ? ? ? two ?]; destruct two; eexists; cbn; [reflexivity|apply set_same]. Qed.

Lemma lease_samples maxlen id m l seq sm now : exists q, record_lease_time maxlen id m l seq sm now = set_samples m q.
Proof.
  unfold record_lease_time. destruct m as [? ? ? ? ? ? one two ?]. destruct l; [destruct one, sm|];
    eexists; cbn; try apply set_same; reflexivity.
Qed.

Lemma span_samples maxlen id m s seq sm now : exists q, record_user_span maxlen id m s seq sm now = set_samples m q.
Proof.
  unfold record_user_span. destruct m as [? ? ? ? ? ? one two ?]. destruct two, sm;
    eexists; cbn; try apply set_same; reflexivity.
Qed.

Ltac keep := apply Good_keep; auto; try reflexivity; try (intros; discriminate).

Section Run.
Context (maxlen : nat).

Lemma Glob_step h r o : Glob h r -> Glob (o :: h) (pstep maxlen r o).
Proof.
  intros G. destruct o; try exact G.
  - destruct G as (C & X & L). cbn. unfold Glob. cbn. auto.
  - unfold Glob. cbn. destruct G as (C & X & L). unfold option_map. destruct (c_enabled c); [destruct (c_ttl c)|]; auto.
  - cbn [pstep]. destruct (trace_batch max_samples now r) as [r' out] eqn:E.
    destruct (trace_batch_shape _ _ _ _ _ E) as (qs' & _ & _ & ->).
    apply (Glob_expire h r now (Batch max_samples now)) in G; [|right; eauto].
    cbn [fst]. exact G.
  - cbn [pstep]. eapply Glob_expire; [exact G|]. auto.
  - destruct G as (C & X & L). destruct reset; unfold Glob; cbn; auto.
Qed.

Lemma InvE_step s id h r o : Glob h r -> InvE s id h r -> InvE s id (o :: h) (pstep maxlen r o).
Proof.
  intros G I.
  destruct o.
  - (* RegPub *)
    unfold InvE in *. destruct s; cbn [pstep endpoints set_pubs r_pubs r_subs] in *.
    + rewrite get_put. destruct (dec id id0) as [<-|N].
      * assert (K : restarts Pub id h (RegPub id topic) = true) by (unfold restarts, registers; rewrite Nat.eqb_refl; reflexivity).
        unfold Good. cbn -[restarts]. rewrite K, ?Nat.eqb_refl. destruct G as (-> & _).
        exact (conj eq_refl (conj eq_refl (conj eq_refl (conj eq_refl (conj eq_refl (conj eq_refl (conj (fun _ => eq_refl) (fun _ _ => eq_refl)))))))).
      * assert (R : registers Pub id (RegPub id0 topic) = None) by (cbn; destruct (Nat.eqb_spec id0 id); congruence).
        assert (K : restarts Pub id h (RegPub id0 topic) = false) by (unfold restarts; rewrite R; reflexivity).
        destruct (get id (r_pubs r)) as [m|].
        -- replace m with (set_samples m (m_samples m)) by (destruct m; reflexivity). keep.
        -- cbn [registered]. rewrite R. exact I.
    + destruct (get id (r_subs r)) as [m|].
      * replace m with (set_samples m (m_samples m)) by (destruct m; reflexivity). keep.
      * exact I.
  - (* UnregPub *)
    unfold InvE in *. destruct s; cbn [pstep endpoints set_pubs r_pubs r_subs] in *.
    + rewrite get_del. destruct (dec id id0) as [<-|N].
      * cbn. rewrite Nat.eqb_refl. reflexivity.
      * assert (V : removes Pub id (UnregPub id0) = false) by (cbn; destruct (Nat.eqb_spec id0 id); congruence).
        destruct (get id (r_pubs r)) as [m|].
        -- replace m with (set_samples m (m_samples m)) by (destruct m; reflexivity). keep.
        -- cbn [registered]. rewrite V. exact I.
    + destruct (get id (r_subs r)) as [m|].
      * replace m with (set_samples m (m_samples m)) by (destruct m; reflexivity). keep.
      * exact I.
  - (* RegSub *)
    unfold InvE in *. destruct s; cbn [pstep endpoints set_subs r_pubs r_subs] in *.
    + destruct (get id (r_pubs r)) as [m|].
      * replace m with (set_samples m (m_samples m)) by (destruct m; reflexivity). keep.
      * exact I.
    + rewrite get_put. destruct (dec id id0) as [<-|N].
      * assert (K : restarts Sub id h (RegSub id topic) = true) by (unfold restarts, registers; rewrite Nat.eqb_refl; reflexivity).
        unfold Good. cbn -[restarts]. rewrite K, ?Nat.eqb_refl. destruct G as (-> & _).
        refine (conj eq_refl (conj eq_refl (conj eq_refl (conj eq_refl (conj eq_refl (conj eq_refl (conj (fun _ => eq_refl) _))))))).
        discriminate.
      * assert (R : registers Sub id (RegSub id0 topic) = None) by (cbn; destruct (Nat.eqb_spec id0 id); congruence).
        assert (K : restarts Sub id h (RegSub id0 topic) = false) by (unfold restarts; rewrite R; reflexivity).
        destruct (get id (r_subs r)) as [m|].
        -- replace m with (set_samples m (m_samples m)) by (destruct m; reflexivity). keep.
        -- cbn [registered]. rewrite R. exact I.
  - (* UnregSub *)
    unfold InvE in *. destruct s; cbn [pstep endpoints set_subs r_pubs r_subs] in *.
    + destruct (get id (r_pubs r)) as [m|].
      * replace m with (set_samples m (m_samples m)) by (destruct m; reflexivity). keep.
      * exact I.
    + rewrite get_del. destruct (dec id id0) as [<-|N].
      * cbn. rewrite Nat.eqb_refl. reflexivity.
      * assert (V : removes Sub id (UnregSub id0) = false) by (cbn; destruct (Nat.eqb_spec id0 id); congruence).
        destruct (get id (r_subs r)) as [m|].
        -- replace m with (set_samples m (m_samples m)) by (destruct m; reflexivity). keep.
        -- cbn [registered]. rewrite V. exact I.
  - (* Publish *)
    unfold InvE in *. destruct s; cbn [pstep endpoints set_pubs r_pubs r_subs] in *.
    + rewrite get_on. destruct (dec id id0) as [<-|N].
      * destruct (get id (r_pubs r)) as [m|]; cbn [option_map]; [|exact I].
        destruct I as (G1 & G2 & G3 & G4 & G5 & G6 & G7 & G8).
        assert (T : total Pub id (Publish id seq now :: h) = S (total Pub id h)) by (cbn; rewrite Nat.eqb_refl; reflexivity).
        assert (C : recent Pub id (Publish id seq now :: h) = S (recent Pub id h)) by (cbn; rewrite Nat.eqb_refl; reflexivity).
        assert (O : ordinal Pub id (Publish id seq now :: h) = S (ordinal Pub id h)) by (cbn; rewrite Nat.eqb_refl; reflexivity).
        assert (LT : last_traced id (Publish id seq now :: h) = if S (ordinal Pub id h) mod rate h =? 0 then Some now else last_traced id h)
          by (cbn; rewrite Nat.eqb_refl; reflexivity).
        cbn [counting] in G7.
        unfold record_publish. cbn [m_topic m_total m_last m_mod m_count m_ts m_one m_two m_samples].
        assert (RM : Nat.max 1 (m_mod m) = rate h) by (rewrite G4; unfold rate; lia).
        rewrite RM.
        destruct (m_one m) eqn:E1.
        -- rewrite G7 by reflexivity.
           destruct (S (ordinal Pub id h) mod rate h =? 0) eqn:EM;
             unfold Good; cbn [m_topic m_total m_last m_mod m_count m_ts m_one m_two counting];
             rewrite T, C, O, LT;
             refine (conj G1 (conj (f_equal S G2) (conj _ (conj G4 (conj G5 (conj G6 (conj _ _))))))); auto; rewrite ?G3; lia.
        -- unfold Good; cbn [m_topic m_total m_last m_mod m_count m_ts m_one m_two counting];
             rewrite T, C.
           refine (conj G1 (conj (f_equal S G2) (conj _ (conj G4 (conj G5 (conj G6 (conj _ _))))))); try congruence; rewrite ?G3; lia.
      * assert (E : is_event Pub id (Publish id0 seq now) = false) by (cbn; destruct (Nat.eqb_spec id0 id); congruence).
        destruct (get id (r_pubs r)) as [m|].
        -- replace m with (set_samples m (m_samples m)) by (destruct m; reflexivity). keep.
           intros i sq t _ HH. injection HH as <- _ _. congruence.
        -- exact I.
    + destruct (get id (r_subs r)) as [m|].
      * replace m with (set_samples m (m_samples m)) by (destruct m; reflexivity). keep.
      * exact I.
  - (* Wait *)
    unfold InvE in *. destruct s; cbn [pstep endpoints set_pubs r_pubs r_subs] in *.
    + rewrite get_on. destruct (dec id id0) as [<-|N].
      * destruct (get id (r_pubs r)) as [m|]; cbn [option_map]; [|exact I].
        destruct (wait_samples maxlen id m wait seq now) as [q ->]. keep.
      * destruct (get id (r_pubs r)) as [m|]; [|exact I].
        replace m with (set_samples m (m_samples m)) by (destruct m; reflexivity). keep.
    + destruct (get id (r_subs r)) as [m|]; [|exact I].
      replace m with (set_samples m (m_samples m)) by (destruct m; reflexivity). keep.
  - (* Begin *)
    unfold InvE in *. destruct s; cbn [pstep endpoints set_subs r_pubs r_subs] in *.
    + destruct (get id (r_pubs r)) as [m|]; [|exact I].
      replace m with (set_samples m (m_samples m)) by (destruct m; reflexivity). keep.
    + rewrite get_on. destruct (dec id id0) as [<-|N].
      * destruct (get id (r_subs r)) as [m|]; cbn [option_map]; [|exact I].
        destruct I as (G1 & G2 & G3 & G4 & G5 & G6 & G7 & G8).
        assert (T : total Sub id (Begin id :: h) = S (total Sub id h)) by (cbn; rewrite Nat.eqb_refl; reflexivity).
        assert (C : recent Sub id (Begin id :: h) = S (recent Sub id h)) by (cbn; rewrite Nat.eqb_refl; reflexivity).
        assert (O : ordinal Sub id (Begin id :: h) = S (ordinal Sub id h)) by (cbn; rewrite Nat.eqb_refl; reflexivity).
        cbn [counting] in G7.
        unfold begin_message. cbn [m_topic m_total m_last m_mod m_count m_ts m_one m_two m_samples].
        destruct (m_one m || m_two m) eqn:E1; cbn [fst];
          unfold Good; cbn [m_topic m_total m_last m_mod m_count m_ts m_one m_two counting]; rewrite T, C, ?O;
          refine (conj G1 (conj (f_equal S G2) (conj _ (conj G4 (conj G5 (conj G6 (conj _ _))))))); try congruence; rewrite ?G3; try lia.
      * assert (E : is_event Sub id (Begin id0) = false) by (cbn; destruct (Nat.eqb_spec id0 id); congruence).
        destruct (get id (r_subs r)) as [m|]; [|exact I].
        replace m with (set_samples m (m_samples m)) by (destruct m; reflexivity). keep.
  - (* Lease *)
    unfold InvE in *. destruct s; cbn [pstep endpoints set_subs r_pubs r_subs] in *.
    + destruct (get id (r_pubs r)) as [m|]; [|exact I].
      replace m with (set_samples m (m_samples m)) by (destruct m; reflexivity). keep.
    + rewrite get_on. destruct (dec id id0) as [<-|N].
      * destruct (get id (r_subs r)) as [m|]; cbn [option_map]; [|exact I].
        destruct (lease_samples maxlen id m lease seq sampled now) as [q ->]. keep.
      * destruct (get id (r_subs r)) as [m|]; [|exact I].
        replace m with (set_samples m (m_samples m)) by (destruct m; reflexivity). keep.
  - (* Span *)
    unfold InvE in *. destruct s; cbn [pstep endpoints set_subs r_pubs r_subs] in *.
    + destruct (get id (r_pubs r)) as [m|]; [|exact I].
      replace m with (set_samples m (m_samples m)) by (destruct m; reflexivity). keep.
    + rewrite get_on. destruct (dec id id0) as [<-|N].
      * destruct (get id (r_subs r)) as [m|]; cbn [option_map]; [|exact I].
        destruct (span_samples maxlen id m span seq sampled now) as [q ->]. keep.
      * destruct (get id (r_subs r)) as [m|]; [|exact I].
        replace m with (set_samples m (m_samples m)) by (destruct m; reflexivity). keep.
  - (* Snapshot *)
    unfold InvE in *.
    replace (get id (endpoints s (pstep maxlen r (Snapshot now))))
      with (option_map (fun m => mkMetrics (m_topic m) (m_total m) (m_total m) (m_mod m) (m_count m) (m_ts m) (m_one m) (m_two m) (m_samples m))
              (get id (endpoints s r)))
      by (destruct s; cbn; rewrite get_map_values; reflexivity).
    destruct (get id (endpoints s r)) as [m|]; cbn [option_map].
    + destruct I as (G1 & G2 & G3 & G4 & G5 & G6 & G7 & G8).
      assert (T : total s id (Snapshot now :: h) = total s id h) by (destruct s; reflexivity).
      assert (Rg : registered s id (Snapshot now :: h) = registered s id h) by (destruct s; reflexivity).
      assert (O : ordinal s id (Snapshot now :: h) = ordinal s id h) by (destruct s; reflexivity).
      unfold Good. cbn [m_topic m_total m_last m_mod m_count m_ts m_one m_two]. rewrite T, Rg, O.
      refine (conj G1 (conj G2 (conj _ (conj G4 (conj G5 (conj G6 (conj _ _))))))).
      * cbn. lia.
      * unfold counting in *. destruct s; exact G7.
      * intros -> H. cbn. apply G8; auto.
    + destruct s; exact I.
  - (* Control *)
    unfold InvE in *.
    replace (get id (endpoints s (pstep maxlen r (Control c now))))
      with (option_map (fun m => match s with Pub => apply_to_publisher c id (set_samples m [])
                                        | Sub => apply_to_subscriber c id (set_samples m []) end) (get id (endpoints s r)))
      by (destruct s; cbn; rewrite get_map_values; reflexivity).
    destruct (get id (endpoints s r)) as [m|]; cbn [option_map].
    + apply Good_apply; auto; try (destruct s; reflexivity). intros; discriminate.
    + destruct s; exact I.
  - (* Batch *)
    cbn [pstep]. destruct (trace_batch max_samples now r) as [r' out] eqn:E.
    destruct (trace_batch_shape _ _ _ _ _ E) as (qs' & T & _ & ->).
    apply taken_length in T. rewrite app_length, !map_length in T.
    apply (InvE_expire s id h r now (Batch max_samples now)) in I; [|exact G|right; eauto].
    unfold InvE in *. cbn [fst].
    assert (X : match get id (endpoints s (expire now r)) with
                | Some m => exists q, get id (endpoints s (mkRegistry (refill (r_pubs (expire now r)) (firstn (length (r_pubs (expire now r))) qs'))
                    (refill (r_subs (expire now r)) (skipn (length (r_pubs (expire now r))) qs'))
                    (r_control (expire now r)) (r_expires (expire now r)) (r_last (expire now r)))) = Some (set_samples m q)
                | None => get id (endpoints s (mkRegistry (refill (r_pubs (expire now r)) (firstn (length (r_pubs (expire now r))) qs'))
                    (refill (r_subs (expire now r)) (skipn (length (r_pubs (expire now r))) qs'))
                    (r_control (expire now r)) (r_expires (expire now r)) (r_last (expire now r)))) = None
                end).
    { destruct s; cbn [endpoints r_pubs r_subs]; apply get_refill.
      - rewrite firstn_length. lia.
      - rewrite skipn_length. lia. }
    destruct (get id (endpoints s (expire now r))) as [m|].
    + destruct X as [q ->]. apply Good_samples. exact I.
    + rewrite X. exact I.
  - (* Enabled *)
    cbn [pstep]. eapply InvE_expire; eauto.
  - (* SetProcess *)
    unfold InvE in *. destruct reset.
    + destruct s; cbn; reflexivity.
    + replace (get id (endpoints s (pstep maxlen r (SetProcess false)))) with (get id (endpoints s r)) by (destruct s; reflexivity).
      destruct (get id (endpoints s r)) as [m|].
      * replace m with (set_samples m (m_samples m)) by (destruct m; reflexivity).
        apply Good_keep; auto; try (destruct s; reflexivity); intros; discriminate.
      * destruct s; exact I.
Qed.

Lemma after_cons o h : after maxlen (o :: h) = pstep maxlen (after maxlen h) o.
Proof. unfold after, prun. cbn [rev]. rewrite fold_left_app. reflexivity. Qed.

Lemma Glob_after h : Glob h (after maxlen h).
Proof.
  induction h as [|o h IH]; [unfold Glob; cbn; auto|]. rewrite after_cons. apply Glob_step. exact IH.
Qed.

Lemma InvE_after s id h : InvE s id h (after maxlen h).
Proof.
  induction h as [|o h IH]; [destruct s; reflexivity|]. rewrite after_cons. apply InvE_step; [apply Glob_after|exact IH].
Qed.

(** ** What the queues hold *)

Lemma keys_map_values {V W} (f : nat -> V -> W) d : keys (map_values f d) = keys d.
Proof. unfold keys, map_values. rewrite map_map. reflexivity. Qed.

Lemma keys_refill d qs : length qs = length d -> keys (refill d qs) = keys d.
Proof.
  revert qs; induction d as [|[j m] d IH]; intros [|q qs] L; try discriminate; [reflexivity|].
  cbn. f_equal. apply IH. cbn in L. lia.
Qed.

Lemma NoDup_keys_on id f d : NoDup (keys d) -> NoDup (keys (on id f d)).
Proof. unfold on. destruct (get id d); [apply NoDup_keys_put|auto]. Qed.

Definition Keys (r : registry) : Prop := NoDup (keys (r_pubs r)) /\ NoDup (keys (r_subs r)).

Lemma Keys_expire now r : Keys r -> Keys (expire now r).
Proof.
  intros [A B]. unfold expire. destruct (r_expires r) as [t|]; [|split; auto].
  destruct (now <? t); [split; auto|]. split; cbn [r_pubs r_subs set_trace_control snapshot fst]; rewrite keys_map_values; auto.
Qed.

Lemma batch_lengths d1 d2 out (qs' : list (list sample)) :
  taken (map (fun p : nat * metrics => m_samples (snd p)) d1 ++ map (fun p : nat * metrics => m_samples (snd p)) d2) out qs' ->
  length (firstn (length d1) qs') = length d1 /\ length (skipn (length d1) qs') = length d2.
Proof.
  intros T. apply taken_length in T. rewrite app_length, !map_length in T.
  rewrite firstn_length, skipn_length. lia.
Qed.

Lemma Keys_step r o : Keys r -> Keys (pstep maxlen r o).
Proof.
  intros K. pose proof K as [A B]. destruct o; cbn [pstep set_pubs set_subs];
    try (split; cbn [r_pubs r_subs set_pubs set_subs]; solve [auto | apply NoDup_keys_put; auto | apply NoDup_keys_del; auto | apply NoDup_keys_on; auto]).
  - split; cbn [r_pubs r_subs set_trace_control snapshot fst]; rewrite keys_map_values; auto.
  - split; cbn [r_pubs r_subs set_trace_control snapshot fst]; rewrite keys_map_values; auto.
  - destruct (trace_batch max_samples now r) as [r' out] eqn:E.
    destruct (trace_batch_shape _ _ _ _ _ E) as (qs' & T & _ & ->).
    apply batch_lengths in T. destruct T as [L1 L2].
    apply (Keys_expire now) in K. destruct K as [A' B'].
    split; cbn [fst r_pubs r_subs]; rewrite keys_refill; auto.
  - apply Keys_expire. exact K.
  - destruct reset; split; cbn; auto; constructor.
Qed.

Lemma Keys_after h : Keys (after maxlen h).
Proof.
  induction h as [|o h IH]; [split; constructor|]. rewrite after_cons. apply Keys_step. exact IH.
Qed.

Lemma get_nth k (d : list (nat * metrics)) m : get k d = Some m -> exists i, nth_error d i = Some (k, m) /\
  forall qs, length qs = length d -> get k (refill d qs) = option_map (set_samples m) (nth_error qs i).
Proof.
  induction d as [|[j v] d IH]; [discriminate|]. cbn. destruct (dec k j) as [<-|N]; intros E.
  - injection E as ->. exists 0. split; [reflexivity|]. intros [|q qs] L; [discriminate|]. cbn.
    destruct (dec k k); [reflexivity|congruence].
  - destruct (IH E) as (i & Ei & H). exists (S i). split; [exact Ei|]. intros [|q qs] L; [discriminate|]. cbn.
    destruct (dec k j); [congruence|]. apply H. cbn in L. lia.
Qed.

Lemma taken_suffix qs out qs' :
  taken qs out qs' -> forall i q', nth_error qs' i = Some q' -> exists p, nth_error qs i = Some (p ++ q').
Proof.
  induction 1 as [qs|qs j x q out qs' E M T IH]; intros i q' Ei; [exists []; exact Ei|].
  destruct (IH _ _ Ei) as [p Ep]. rewrite nth_error_set_nth in Ep by (eapply nth_error_lt; eauto).
  destruct (j =? i) eqn:D; [apply Nat.eqb_eq in D; subst i; injection Ep as ->; exists (x :: p); exact E|].
  exists p. exact Ep.
Qed.

Lemma nth_error_firstn {A} (l : list A) n i : i < n -> nth_error (firstn n l) i = nth_error l i.
Proof.
  revert n i; induction l as [|x l IH]; intros [|n] [|i] L; cbn; auto; try lia. apply IH. lia.
Qed.

Lemma nth_error_skipn {A} (l : list A) n i : nth_error (skipn n l) i = nth_error l (n + i).
Proof.
  revert n; induction l as [|x l IH]; intros [|n]; cbn; auto. destruct i; reflexivity.
Qed.

(** The queue of an endpoint after a batch. *)
Lemma batch_get s id n now r r' out m :
  trace_batch n now r = (r', out) ->
  get id (endpoints s (expire now r)) = Some m ->
  exists i qs',
    taken (map (fun p => m_samples (snd p)) (r_pubs (expire now r)) ++ map (fun p => m_samples (snd p)) (r_subs (expire now r))) out qs' /\
    nth_error (map (fun p => (Pub, fst p)) (r_pubs (expire now r)) ++ map (fun p => (Sub, fst p)) (r_subs (expire now r))) i = Some (s, id) /\
    nth_error (map (fun p => m_samples (snd p)) (r_pubs (expire now r)) ++ map (fun p => m_samples (snd p)) (r_subs (expire now r))) i = Some (m_samples m) /\
    exists q', nth_error qs' i = Some q' /\ get id (endpoints s r') = Some (set_samples m q').
Proof.
  intros E G. destruct (trace_batch_shape _ _ _ _ _ E) as (qs' & T & _ & ->).
  pose proof (batch_lengths _ _ _ _ T) as [L1 L2].
  set (d1 := r_pubs (expire now r)) in *. set (d2 := r_subs (expire now r)) in *.
  assert (D : exists i d q0, (s = Pub /\ d = d1 /\ q0 = firstn (length d1) qs' \/ s = Sub /\ d = d2 /\ q0 = skipn (length d1) qs')
     /\ nth_error d i = Some (id, m) /\ forall qs, length qs = length d -> get id (refill d qs) = option_map (set_samples m) (nth_error qs i)).
  { destruct (get_nth _ _ _ G) as (i & Ei & H). destruct s.
    - exists i, d1, (firstn (length d1) qs'). auto.
    - exists i, d2, (skipn (length d1) qs'). auto. }
  destruct D as (i & d & q0 & D & Ei & H).
  pose proof (nth_error_lt _ _ _ Ei) as Li.
  destruct D as [(-> & -> & ->)|(-> & -> & ->)].
  - exists i, qs'. split; [exact T|].
    rewrite !nth_error_app1 by (rewrite map_length; exact Li).
    split; [erewrite map_nth_error by exact Ei; reflexivity|].
    split; [erewrite map_nth_error by exact Ei; reflexivity|].
    destruct (nth_error qs' i) as [q'|] eqn:Eq.
    + exists q'. split; [reflexivity|]. cbn [endpoints r_pubs]. rewrite (H _ L1), nth_error_firstn, Eq by exact Li. reflexivity.
    + exfalso. apply nth_error_None in Eq. rewrite firstn_length in L1. lia.
  - exists (length d1 + i), qs'. split; [exact T|].
    rewrite !nth_error_app2 by (rewrite map_length; lia). rewrite !map_length, !Nat.add_sub_swap, Nat.sub_diag by lia.
    cbn [Nat.add].
    split; [erewrite map_nth_error by exact Ei; reflexivity|].
    split; [erewrite map_nth_error by exact Ei; reflexivity|].
    destruct (nth_error qs' (length d1 + i)) as [q'|] eqn:Eq.
    + exists q'. split; [reflexivity|]. cbn [endpoints r_subs]. rewrite (H _ L2), nth_error_skipn, Eq. reflexivity.
    + exfalso. apply nth_error_None in Eq. rewrite skipn_length in L2. lia.
Qed.

(** A property of queues kept by every call. *)
Definition AllQ (Q : side -> nat -> list sample -> Prop) (r : registry) : Prop :=
  forall s id m, get id (endpoints s r) = Some m -> Q s id (m_samples m).

Lemma batch_get_None s id n now r r' out :
  trace_batch n now r = (r', out) -> get id (endpoints s (expire now r)) = None -> get id (endpoints s r') = None.
Proof.
  intros E G. destruct (trace_batch_shape _ _ _ _ _ E) as (qs' & T & _ & ->).
  apply batch_lengths in T. destruct T as [L1 L2].
  destruct s; cbn [endpoints r_pubs r_subs] in *.
  - pose proof (get_refill (r_pubs (expire now r)) _ id L1) as K. rewrite G in K. exact K.
  - pose proof (get_refill (r_subs (expire now r)) _ id L2) as K. rewrite G in K. exact K.
Qed.

Section Queues.
Context (Q Q' : side -> nat -> list sample -> Prop) (o : op).
Hypothesis Q_nil : forall s id, Q' s id [].
Hypothesis Q_suffix : forall s id a b, Q s id (a ++ b) -> Q' s id b.
Hypothesis Q'_suffix : forall s id a b, Q' s id (a ++ b) -> Q' s id b.
Hypothesis Q_add : forall s id q x t,
  reading o = Some t -> s_time x = t -> sample_of s id x = true -> Q s id q -> Q' s id (q ++ [x]).

Lemma Q_same s id q : Q s id q -> Q' s id q.
Proof. intros H. apply (Q_suffix s id [] q). exact H. Qed.

Lemma Q_push s id q x t :
  reading o = Some t -> s_time x = t -> sample_of s id x = true -> Q s id q -> Q' s id (push maxlen q x).
Proof.
  intros R T X H. unfold push. apply (Q'_suffix s id (firstn (length (q ++ [x]) - maxlen) (q ++ [x]))).
  rewrite firstn_skipn. eapply Q_add; eauto.
Qed.

Lemma AllQ_same r r' :
  (forall s id, get id (endpoints s r') = get id (endpoints s r)) -> AllQ Q r -> AllQ Q' r'.
Proof. intros H A s id m E. rewrite H in E. apply Q_same. eapply A; eauto. Qed.

Lemma AllQ_expire now r : AllQ Q r -> AllQ Q' (expire now r).
Proof.
  intros A. unfold expire. destruct (r_expires r) as [t|]; [|apply AllQ_same with r; auto].
  destruct (now <? t); [apply AllQ_same with r; auto|].
  intros s id m E. replace (m_samples m) with (@nil sample); [apply Q_nil|].
  destruct s; cbn in E; rewrite get_map_values in E; destruct (get id _); cbn in E; try discriminate; injection E as <-; reflexivity.
Qed.

Lemma AllQ_step r : AllQ Q r -> AllQ Q' (pstep maxlen r o).
Proof.
  intros A.
  assert (A0 : forall s id m, get id (endpoints s r) = Some m -> Q' s id (m_samples m)) by (intros; apply Q_same; eapply A; eauto).
  pose proof Q_push as QP. clear Q_add.
  destruct o as [i tp|i|i tp|i|i sq now|i w sq now|i|i l sq sm now|i sp sq sm now|now|c now|n now|now|rs].
  - intros s id m E. destruct s; [|exact (A0 Sub id m E)]. cbn [pstep endpoints set_pubs r_pubs] in E.
    rewrite get_put in E. destruct (dec id i); [injection E as <-; apply Q_nil|exact (A0 Pub id m E)].
  - intros s id m E. destruct s; [|exact (A0 Sub id m E)]. cbn [pstep endpoints set_pubs r_pubs] in E.
    rewrite get_del in E. destruct (dec id i); [discriminate|exact (A0 Pub id m E)].
  - intros s id m E. destruct s; [exact (A0 Pub id m E)|]. cbn [pstep endpoints set_subs r_subs] in E.
    rewrite get_put in E. destruct (dec id i); [injection E as <-; apply Q_nil|exact (A0 Sub id m E)].
  - intros s id m E. destruct s; [exact (A0 Pub id m E)|]. cbn [pstep endpoints set_subs r_subs] in E.
    rewrite get_del in E. destruct (dec id i); [discriminate|exact (A0 Sub id m E)].
  - intros s id m E. destruct s; [|exact (A0 Sub id m E)]. cbn [pstep endpoints set_pubs r_pubs] in E.
    rewrite get_on in E. destruct (dec id i) as [<-|N]; [|exact (A0 Pub id m E)].
    destruct (get id (r_pubs r)) as [m0|] eqn:G; [|discriminate]. cbn in E. injection E as <-.
    unfold record_publish. cbn [m_one m_count m_mod m_samples m_ts]. destruct (m_one m0); [|exact (A0 Pub id m0 G)].
    destruct (_ =? 0); [|exact (A0 Pub id m0 G)]. cbn [m_samples].
    eapply QP; [reflexivity|reflexivity| |exact (A Pub id m0 G)]. unfold sample_of. cbn. rewrite Nat.eqb_refl. reflexivity.
  - intros s id m E. destruct s; [|exact (A0 Sub id m E)]. cbn [pstep endpoints set_pubs r_pubs] in E.
    rewrite get_on in E. destruct (dec id i) as [<-|N]; [|exact (A0 Pub id m E)].
    destruct (get id (r_pubs r)) as [m0|] eqn:G; [|discriminate]. cbn in E. injection E as <-.
    unfold record_backpressure_wait. destruct (m_two m0); [|exact (A0 Pub id m0 G)]. cbn [m_samples].
    eapply QP; [reflexivity|reflexivity| |exact (A Pub id m0 G)]. unfold sample_of. cbn. rewrite Nat.eqb_refl. reflexivity.
  - intros s id m E. destruct s; [exact (A0 Pub id m E)|]. cbn [pstep endpoints set_subs r_subs] in E.
    rewrite get_on in E. destruct (dec id i) as [<-|N]; [|exact (A0 Sub id m E)].
    destruct (get id (r_subs r)) as [m0|] eqn:G; [|discriminate]. cbn in E. injection E as <-.
    unfold begin_message. cbn [m_one m_two]. destruct (m_one m0 || m_two m0); exact (A0 Sub id m0 G).
  - intros s id m E. destruct s; [exact (A0 Pub id m E)|]. cbn [pstep endpoints set_subs r_subs] in E.
    rewrite get_on in E. destruct (dec id i) as [<-|N]; [|exact (A0 Sub id m E)].
    destruct (get id (r_subs r)) as [m0|] eqn:G; [|discriminate]. cbn in E. injection E as <-.
    unfold record_lease_time. destruct l; [|exact (A0 Sub id m0 G)].
    destruct (m_one m0 && sm); [|exact (A0 Sub id m0 G)]. cbn [m_samples].
    eapply QP; [reflexivity|reflexivity| |exact (A Sub id m0 G)]. unfold sample_of. cbn. rewrite Nat.eqb_refl. reflexivity.
  - intros s id m E. destruct s; [exact (A0 Pub id m E)|]. cbn [pstep endpoints set_subs r_subs] in E.
    rewrite get_on in E. destruct (dec id i) as [<-|N]; [|exact (A0 Sub id m E)].
    destruct (get id (r_subs r)) as [m0|] eqn:G; [|discriminate]. cbn in E. injection E as <-.
    unfold record_user_span. destruct (m_two m0 && sm); [|exact (A0 Sub id m0 G)]. cbn [m_samples].
    eapply QP; [reflexivity|reflexivity| |exact (A Sub id m0 G)]. unfold sample_of. cbn. rewrite Nat.eqb_refl. reflexivity.
  - intros s id m E.
    assert (K : exists m0, get id (endpoints s r) = Some m0 /\ m_samples m = m_samples m0).
    { destruct s; cbn in E; rewrite get_map_values in E; cbn; destruct (get id _) as [m0|]; cbn in E; try discriminate;
        injection E as <-; eauto. }
    destruct K as (m0 & G & ->). apply A0. exact G.
  - intros s id m E. replace (m_samples m) with (@nil sample); [apply Q_nil|].
    destruct s; cbn in E; rewrite get_map_values in E; destruct (get id _); cbn in E; try discriminate; injection E as <-; reflexivity.
  - cbn [pstep]. destruct (trace_batch n now r) as [r' out] eqn:E. cbn [fst].
    pose proof (AllQ_expire now r A) as A1.
    intros s id m Em. destruct (get id (endpoints s (expire now r))) as [m0|] eqn:G.
    + destruct (batch_get _ _ _ _ _ _ _ _ E G) as (j & qs' & T & _ & E2 & q' & E3 & E4).
      rewrite Em in E4. injection E4 as ->. cbn [set_samples m_samples].
      destruct (taken_suffix _ _ _ T _ _ E3) as [p Ep]. rewrite E2 in Ep. injection Ep as Ep.
      apply (Q'_suffix s id p). rewrite <- Ep. apply A1. exact G.
    + rewrite (batch_get_None _ _ _ _ _ _ _ E G) in Em. discriminate.
  - apply AllQ_expire. exact A.
  - destruct rs.
    + intros s id m E. destruct s; discriminate.
    + intros s id m E. destruct s; cbn in E; [apply (A0 Pub) in E|apply (A0 Sub) in E]; exact E.
Qed.

End Queues.

(** Each queue holds its own endpoint's samples. *)
Lemma tags_after h : AllQ (fun s id q => forall x, In x q -> sample_of s id x = true) (after maxlen h).
Proof.
  induction h as [|o h IH]; [intros s id m E; destruct s; discriminate|].
  rewrite after_cons. eapply AllQ_step; [..|exact IH]; cbn beta.
  - intros s id x [].
  - intros s id a b H x I. apply H. apply in_or_app. auto.
  - intros s id a b H x I. apply H. apply in_or_app. auto.
  - intros s id q x t _ _ X H y I. apply in_app_or in I. destruct I as [I|[<-|[]]]; auto.
Qed.

Lemma in_time_order_suffix a b : in_time_order (a ++ b) -> in_time_order b.
Proof. induction a as [|x a IH]; cbn; [auto|]. intros [_ H]. auto. Qed.

Lemma in_time_order_snoc q x : in_time_order q -> (forall y, In y q -> s_time y <= s_time x) -> in_time_order (q ++ [x]).
Proof.
  induction q as [|y q IH]; cbn; intros H L; [split; [intros y []|exact I]|].
  destruct H as [H1 H2]. split; [|apply IH; auto].
  intros z Iz. apply in_app_or in Iz. destruct Iz as [Iz|[<-|[]]]; auto.
Qed.

(** In time order, if the clock never goes back. *)
Lemma times_after h : forall now, monotone h now ->
  AllQ (fun _ _ q => in_time_order q /\ forall x, In x q -> s_time x <= now) (after maxlen h).
Proof.
  induction h as [|o h IH]; intros now M; [intros s id m E; destruct s; discriminate|].
  rewrite after_cons. cbn in M.
  assert (K : exists t, t <= now /\ monotone h t /\ forall u, reading o = Some u -> u = t).
  { destruct (reading o) as [t|].
    - exists t. destruct M. split; [auto|]. split; [auto|]. intros u E. congruence.
    - exists now. split; [lia|]. split; [auto|]. discriminate. }
  destruct K as (t & L & M' & R).
  eapply AllQ_step; [..|apply (IH t M')]; cbn beta.
  - intros s id. split; [exact I|]. intros x [].
  - intros s id a b [H1 H2]. split; [eapply in_time_order_suffix; eauto|].
    intros x I. etransitivity; [apply H2; apply in_or_app; auto|exact L].
  - intros s id a b [H1 H2]. split; [eapply in_time_order_suffix; eauto|].
    intros x I. apply H2; apply in_or_app; auto.
  - intros s id q x u Ru Tx X [H1 H2]. apply R in Ru. rewrite Ru in Tx. split.
    + apply in_time_order_snoc; [exact H1|]. intros y I. rewrite Tx. auto.
    + intros y I. apply in_app_or in I. destruct I as [I|[<-|[]]]; [|lia]. etransitivity; [apply H2; exact I|exact L].
Qed.

(** ** Batches *)

Lemma sample_of_unique s id s' id' x : sample_of s id x = true -> sample_of s' id' x = true -> s = s' /\ id = id'.
Proof.
  unfold sample_of. rewrite !andb_true_iff, !Nat.eqb_eq. intros [A B] [C D]. split; [|congruence].
  destruct s, s', (of_side (s_metric x)); congruence.
Qed.

Lemma NoDup_nth_eq {A} (l : list A) i j x : NoDup l -> nth_error l i = Some x -> nth_error l j = Some x -> i = j.
Proof.
  intros N Ei Ej. eapply (proj1 (NoDup_nth_error l) N); [eapply nth_error_lt; eauto|congruence].
Qed.

Lemma NoDup_map_pair {B} (s : side) (d : list (nat * B)) : NoDup (keys d) -> NoDup (map (fun p => (s, fst p)) d).
Proof.
  unfold keys. induction d as [|[k b] d IH]; cbn; intros N; [constructor|]. inversion N as [|? ? N1 N2]; subst.
  constructor; [|auto]. intros I. apply N1. apply in_map_iff in I. destruct I as ([k' b'] & E & I). injection E as ->.
  apply in_map_iff. exists (k, b'). auto.
Qed.

Lemma expire_get now r s id m :
  get id (endpoints s (expire now r)) = Some m ->
  exists m0, get id (endpoints s r) = Some m0 /\ (m_samples m = m_samples m0 \/ m_samples m = []).
Proof.
  unfold expire. destruct (r_expires r) as [t|]; [|eauto]. destruct (now <? t); [eauto|].
  intros E. destruct s; cbn in E; rewrite get_map_values in E; cbn; destruct (get id _) as [m0|]; cbn in E; try discriminate;
    injection E as <-; eauto.
Qed.

Lemma NoDup_app_disjoint {A} (a b : list A) :
  NoDup a -> NoDup b -> (forall x, In x a -> ~ In x b) -> NoDup (a ++ b).
Proof.
  induction a as [|x a IH]; cbn; intros Na Nb D; [exact Nb|]. inversion Na as [|? ? N1 N2]; subst.
  constructor; [|apply IH; auto]. intros I. apply in_app_or in I. destruct I as [I|I]; [auto|]. exact (D x (or_introl eq_refl) I).
Qed.

Lemma batch_split r now n r' out s id :
  Keys r -> AllQ (fun s id q => forall x, In x q -> sample_of s id x = true) r ->
  trace_batch n now r = (r', out) ->
  queue s id (expire now r) = filter (sample_of s id) out ++ queue s id r'.
Proof.
  intros K A E. apply (Keys_expire now) in K. destruct K as [K1 K2].
  assert (A' : AllQ (fun s id q => forall x, In x q -> sample_of s id x = true) (expire now r)).
  { intros s' id' m' G x I. destruct (expire_get _ _ _ _ _ G) as (m0 & G0 & [Em|Em]); rewrite Em in I; [|destruct I].
    eapply A; eauto. }
  set (eps := map (fun p : nat * metrics => (Pub, fst p)) (r_pubs (expire now r)) ++ map (fun p : nat * metrics => (Sub, fst p)) (r_subs (expire now r))).
  assert (N : NoDup eps).
  { apply NoDup_app_disjoint; [apply NoDup_map_pair; exact K1|apply NoDup_map_pair; exact K2|].
    intros [s' k] I1 I2. apply in_map_iff in I1, I2. destruct I1 as (? & E1 & _), I2 as (? & E2 & _). congruence. }
  set (qs := map (fun p : nat * metrics => m_samples (snd p)) (r_pubs (expire now r)) ++ map (fun p : nat * metrics => m_samples (snd p)) (r_subs (expire now r))).
  assert (P : forall i q, nth_error qs i = Some q ->
     exists s' id' m', nth_error eps i = Some (s', id') /\ get id' (endpoints s' (expire now r)) = Some m' /\ q = m_samples m').
  { intros i q Eq. unfold qs, eps in *. set (d1 := r_pubs (expire now r)) in *. set (d2 := r_subs (expire now r)) in *.
    destruct (Nat.lt_ge_cases i (length d1)) as [L|L].
    - rewrite nth_error_app1 in Eq by (rewrite map_length; exact L). rewrite nth_error_app1 by (rewrite map_length; exact L).
      rewrite nth_error_map in Eq. rewrite nth_error_map. destruct (nth_error d1 i) as [[k m']|] eqn:Ei; [|discriminate].
      injection Eq as <-. exists Pub, k, m'. split; [reflexivity|]. split; [|reflexivity].
      apply In_get; [exact K1|]. eapply nth_error_In; exact Ei.
    - rewrite nth_error_app2 in Eq by (rewrite map_length; exact L). rewrite nth_error_app2 by (rewrite map_length; exact L).
      rewrite map_length in *. rewrite nth_error_map in Eq. rewrite nth_error_map.
      destruct (nth_error d2 (i - length d1)) as [[k m']|] eqn:Ei; [|discriminate].
      injection Eq as <-. exists Sub, k, m'. split; [reflexivity|]. split; [|reflexivity].
      apply In_get; [exact K2|]. eapply nth_error_In; exact Ei. }
  set (tag := fun i x => match nth_error eps i with Some (s', id') => sample_of s' id' x | None => false end).
  assert (HT : forall i q x, nth_error qs i = Some q -> In x q -> tag i x = true).
  { intros i q x Eq I. destruct (P _ _ Eq) as (s' & id' & m' & E1 & E2 & ->). unfold tag. rewrite E1. eapply A'; eauto. }
  assert (HX : forall i j x, tag i x = true -> tag j x = true -> i = j).
  { intros i j x. unfold tag. destruct (nth_error eps i) as [[s1 i1]|] eqn:E1; [|discriminate].
    destruct (nth_error eps j) as [[s2 i2]|] eqn:E2; [|discriminate]. intros H1 H2.
    destruct (sample_of_unique _ _ _ _ _ H1 H2) as [-> ->]. eapply NoDup_nth_eq; eauto. }
  unfold queue. destruct (get id (endpoints s (expire now r))) as [m|] eqn:G.
  - destruct (batch_get _ _ _ _ _ _ _ _ E G) as (i & qs' & T & E1 & E2 & q' & E3 & E4). rewrite E4.
    destruct (taken_split tag _ _ _ T HT HX _ _ E2) as (q2 & Eq2 & Ef).
    rewrite E3 in Eq2. injection Eq2 as <-. cbn [set_samples m_samples]. rewrite Ef at 1. f_equal.
    apply filter_ext. intros x. unfold tag, eps. rewrite E1. reflexivity.
  - rewrite (batch_get_None _ _ _ _ _ _ _ E G), app_nil_r.
    destruct (trace_batch_shape _ _ _ _ _ E) as (qs' & T & _ & _).
    destruct (filter (sample_of s id) out) as [|x l] eqn:F; [reflexivity|exfalso].
    assert (I : In x (filter (sample_of s id) out)) by (rewrite F; left; reflexivity).
    apply filter_In in I. destruct I as [I X].
    assert (I' : In x (concat qs)) by (apply (proj2 (taken_subset _ _ _ T x)); left; exact I).
    apply in_concat in I'. destruct I' as (q & Iq & Ix). apply In_nth_error in Iq. destruct Iq as [i Ei].
    destruct (P _ _ Ei) as (s' & id' & m' & E1 & E2 & ->).
    destruct (sample_of_unique _ _ _ _ _ X (A' _ _ _ E2 _ Ix)) as [-> ->]. congruence.
Qed.

Lemma concat_buffered r :
  concat (map (fun p : nat * metrics => m_samples (snd p)) (r_pubs r) ++ map (fun p : nat * metrics => m_samples (snd p)) (r_subs r)) = buffered r.
Proof. unfold buffered. rewrite concat_app, !flat_map_concat_map. reflexivity. Qed.

Lemma refill_samples d qs : length qs = length d -> flat_map (fun p => m_samples (snd p)) (refill d qs) = concat qs.
Proof.
  revert qs; induction d as [|[k m] d IH]; intros [|q qs] L; try discriminate; [reflexivity|].
  cbn. f_equal. apply IH. cbn in L. lia.
Qed.

Lemma batch_earliest r now n r' out :
  Keys r -> AllQ (fun _ _ q => in_time_order q /\ forall x, In x q -> s_time x <= now) r ->
  trace_batch n now r = (r', out) ->
  in_time_order out /\ (forall x y, In x out -> In y (buffered r') -> s_time x <= s_time y).
Proof.
  intros K A E. apply (Keys_expire now) in K. destruct K as [K1 K2].
  destruct (trace_batch_shape _ _ _ _ _ E) as (qs' & T & _ & ->).
  pose proof (batch_lengths _ _ _ _ T) as [L1 L2].
  apply taken_earliest in T.
  - destruct T as [T1 T2]. split; [exact T1|]. intros x y Ix Iy. apply T2; [exact Ix|].
    unfold buffered in Iy. cbn [r_pubs r_subs] in Iy. rewrite !refill_samples in Iy by auto.
    rewrite <- concat_app, firstn_skipn in Iy. exact Iy.
  - assert (A' : AllQ (fun _ _ q => in_time_order q) (expire now r)).
    { intros s id m G. destruct (expire_get _ _ _ _ _ G) as (m0 & G0 & [Em|Em]); rewrite Em; [|exact I].
      destruct (A _ _ _ G0). auto. }
    intros q Iq. apply in_app_or in Iq. destruct Iq as [Iq|Iq]; apply in_map_iff in Iq; destruct Iq as ([k m] & <- & Ik).
    + apply (A' Pub k m). apply In_get; auto.
    + apply (A' Sub k m). apply In_get; auto.
Qed.

End Run.
