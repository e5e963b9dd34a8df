From Coq Require Import List Arith Bool Lia Permutation.
From Verif Require Import BackpressureModel BackpressureProofs CacheModel CacheSpec.
Import ListNotations.

Section Proofs.
Context {Obj : Type}.
Implicit Types (c : cache Obj) (ops : list (cache_op Obj)).

Lemma release_slot_length c i : length (slots (release_slot c i)) = length (slots c).
Proof. unfold release_slot. destruct (slot c i); [|reflexivity]. cbn. apply set_nth_length. Qed.

Lemma slot_release_slot c i j : slot (release_slot c i) j = if Nat.eqb i j then None else slot c j.
Proof.
  unfold release_slot. destruct (slot c i) as [e|] eqn:E.
  - unfold slot. cbn. rewrite nth_error_set_nth. destruct (Nat.eqb_spec i j); [|reflexivity].
    destruct (j <? length (slots c)); reflexivity.
  - destruct (Nat.eqb_spec i j); [subst; exact E|reflexivity].
Qed.

Lemma clear_length l : forall c, length (slots (fold_left release_slot l c)) = length (slots c).
Proof. induction l as [|i l IH]; intros c; cbn; [reflexivity|]. now rewrite IH, release_slot_length. Qed.

Lemma slot_clear l : forall c j, slot (fold_left release_slot l c) j = if in_dec Nat.eq_dec j l then None else slot c j.
Proof.
  induction l as [|i l IH]; intros c j; cbn [fold_left]; [reflexivity|].
  rewrite IH, slot_release_slot. destruct (in_dec Nat.eq_dec j l) as [H|H], (in_dec Nat.eq_dec j (i :: l)) as [H'|H'];
    try reflexivity; destruct (Nat.eqb_spec i j); try reflexivity; cbn in H'; tauto.
Qed.

Lemma step_length c op : length (slots (cache_step c op)) = length (slots c).
Proof.
  destruct op as [m o t|m|]; cbn.
  - unfold cache_put. cbn. now rewrite set_nth_length, release_slot_length.
  - unfold cache_release. destruct (slot c (buf_idx c m)) as [e|]; [|reflexivity].
    destruct (e_id e =? m); [apply release_slot_length|reflexivity].
  - apply clear_length.
Qed.

Lemma run_snoc n ops op : cache_run n (ops ++ [op]) = cache_step (cache_run n ops) op.
Proof. unfold cache_run. now rewrite fold_left_app. Qed.

Lemma run_length n ops : length (slots (cache_run n ops)) = n.
Proof.
  induction ops as [|o ops IH] using rev_ind; [apply repeat_length|].
  now rewrite run_snoc, step_length.
Qed.

(** Every entry sits in its own slot. *)
Definition placed (n : nat) c := forall i e, slot c i = Some e -> e_id e mod n = i.

Lemma slot_bound c i e : slot c i = Some e -> i < length (slots c).
Proof.
  unfold slot. destruct (nth_error (slots c) i) eqn:E; [|discriminate]. intros _. apply nth_error_Some. congruence.
Qed.

Lemma slot_put n c e j : length (slots c) = n -> 0 < n ->
  slot (cache_put c e) j = if Nat.eqb (e_id e mod n) j then Some e else slot c j.
Proof.
  intros L Hn. unfold cache_put, buf_idx. cbn. rewrite L. unfold slot at 1. cbn.
  rewrite nth_error_set_nth, release_slot_length, L.
  destruct (Nat.eqb_spec (e_id e mod n) j) as [<-|Hne].
  - destruct (Nat.ltb_spec (e_id e mod n) n) as [_|H]; [reflexivity|].
    pose proof (Nat.mod_upper_bound (e_id e) n). lia.
  - change (slot (release_slot c (e_id e mod n)) j = slot c j). rewrite slot_release_slot.
    destruct (Nat.eqb_spec (e_id e mod n) j); [contradiction|reflexivity].
Qed.

Lemma step_placed n c op : 0 < n -> length (slots c) = n -> placed n c -> placed n (cache_step c op).
Proof.
  intros Hn L P i e. destruct op as [m o t|m|]; cbn [cache_step].
  - rewrite (slot_put n) by auto. cbn. destruct (Nat.eqb_spec (m mod n) i); [|apply P].
    intros [= <-]. exact e0.
  - unfold cache_release. destruct (slot c (buf_idx c m)) as [e0|] eqn:E; [|apply P].
    destruct (e_id e0 =? m); [|apply P]. cbn. rewrite slot_release_slot.
    destruct (buf_idx c m =? i); [discriminate|apply P].
  - unfold cache_clear. rewrite slot_clear. destruct (in_dec _ _ _); [discriminate|apply P].
Qed.

Lemma run_placed n ops : 0 < n -> placed n (cache_run n ops).
Proof.
  intros Hn. induction ops as [|o ops IH] using rev_ind.
  - intros i e. unfold slot. cbn. destruct (nth_error (repeat None n) i) eqn:E; [|discriminate].
    apply nth_error_In, repeat_spec in E. subst. discriminate.
  - rewrite run_snoc. apply step_placed; auto. apply run_length.
Qed.

Lemma get_slot n c m : length (slots c) = n ->
  cache_get c m = match slot c (m mod n) with Some e => if e_id e =? m then Some (e_obj e) else None | None => None end.
Proof. intros L. unfold cache_get, buf_idx. now rewrite L. Qed.

Lemma step_get n c op m : 0 < n -> length (slots c) = n ->
  cache_get (cache_step c op) m =
  match op with
  | Put k o _ => if Nat.eqb k m then Some o else if Nat.eqb (k mod n) (m mod n) then None else cache_get c m
  | Release k => if Nat.eqb k m then None else cache_get c m
  | Clear => None
  end.
Proof.
  intros Hn L. rewrite (get_slot n) by (now rewrite step_length). rewrite (get_slot n c m L).
  destruct op as [k o t|k|]; cbn [cache_step].
  - rewrite (slot_put n) by auto. cbn [e_id].
    destruct (Nat.eqb_spec k m) as [->|Hne].
    + rewrite Nat.eqb_refl. cbn. now rewrite Nat.eqb_refl.
    + destruct (Nat.eqb_spec (k mod n) (m mod n)); [|reflexivity]. cbn.
      destruct (Nat.eqb_spec k m); [contradiction|reflexivity].
  - unfold cache_release, buf_idx. rewrite L.
    destruct (Nat.eqb_spec k m) as [->|Hne].
    + destruct (slot c (m mod n)) as [e|] eqn:E.
      * destruct (e_id e =? m) eqn:Q; cbn.
        -- rewrite slot_release_slot, Nat.eqb_refl. reflexivity.
        -- rewrite E, Q. reflexivity.
      * cbn. rewrite E. reflexivity.
    + destruct (slot c (k mod n)) as [e|] eqn:E; [|reflexivity].
      destruct (Nat.eqb_spec (e_id e) k) as [Q|Q]; [|reflexivity]. cbn.
      rewrite slot_release_slot. destruct (Nat.eqb_spec (k mod n) (m mod n)) as [Em|Em]; [|reflexivity].
      rewrite <- Em, E. destruct (Nat.eqb_spec (e_id e) m); [congruence|reflexivity].
  - unfold cache_clear. rewrite slot_clear. destruct (in_dec _ _ _) as [H|H]; [reflexivity|].
    exfalso. apply H. apply in_seq. pose proof (Nat.mod_upper_bound m n). lia.
Qed.

Lemma lookup_expected n ops m : 0 < n -> cache_get (cache_run n ops) m = expected n (rev ops) m.
Proof.
  intros Hn. induction ops as [|o ops IH] using rev_ind.
  - cbn. rewrite (get_slot n) by apply repeat_length. unfold slot. cbn.
    destruct (nth_error (repeat None n) (m mod n)) eqn:E; [|reflexivity].
    apply nth_error_In, repeat_spec in E. now subst.
  - rewrite run_snoc, rev_app_distr. cbn [rev app].
    rewrite (step_get n) by (auto using run_length). rewrite IH. destruct o; reflexivity.
Qed.

Lemma expected_put n h m o : expected n h m = Some o -> exists t, In (@Put Obj m o t) h.
Proof.
  induction h as [|op h IH]; cbn; [discriminate|]. destruct op as [k x t|k|].
  - destruct (Nat.eqb_spec k m) as [->|Hne]; [intros [= ->]; eauto|].
    destruct (k mod n =? m mod n); [discriminate|]. intros H. destruct (IH H) as [t' ?]. eauto.
  - destruct (k =? m); [discriminate|]. intros H. destruct (IH H) as [t' ?]. eauto.
  - discriminate.
Qed.

Lemma release_absent n ops m : 0 < n -> expected n (rev ops) m = None ->
  cache_release (cache_run n ops) m = (cache_run n ops, false).
Proof.
  intros Hn H. rewrite <- lookup_expected in H by exact Hn. unfold cache_get in H. unfold cache_release.
  destruct (slot (cache_run n ops) (buf_idx (cache_run n ops) m)) as [e|]; [|reflexivity].
  destruct (e_id e =? m); [discriminate|reflexivity].
Qed.

Lemma release_present n ops m o : 0 < n -> expected n (rev ops) m = Some o ->
  snd (cache_release (cache_run n ops) m) = true.
Proof.
  intros Hn H. rewrite <- lookup_expected in H by exact Hn. unfold cache_get in H. unfold cache_release.
  destruct (slot (cache_run n ops) (buf_idx (cache_run n ops) m)) as [e|]; [|discriminate].
  destruct (e_id e =? m); [reflexivity|discriminate].
Qed.

Lemma in_keys c m : In m (cache_keys c) <-> exists i e, slot c i = Some e /\ e_id e = m.
Proof.
  unfold cache_keys, slot. rewrite in_flat_map. split.
  - intros (s & Hs & Hm). destruct s as [e|]; [|destruct Hm]. destruct Hm as [Hm|[]].
    apply In_nth_error in Hs as [i Hi]. exists i, e. now rewrite Hi.
  - intros (i & e & He & Hm). destruct (nth_error (slots c) i) as [s|] eqn:E; [|discriminate]. subst s.
    exists (Some e). split; [eapply nth_error_In; eauto|]. cbn. auto.
Qed.

Lemma keys_exact n ops : 0 < n ->
  (forall m, In m (cache_keys (cache_run n ops)) <-> expected n (rev ops) m <> None) /\
  (forall m k, In m (cache_keys (cache_run n ops)) -> In k (cache_keys (cache_run n ops)) -> m mod n = k mod n -> m = k) /\
  NoDup (cache_keys (cache_run n ops)) /\ length (cache_keys (cache_run n ops)) <= n.
Proof.
  intros Hn. pose proof (run_placed n ops Hn) as P. pose proof (run_length n ops) as L.
  set (c := cache_run n ops) in *.
  assert (A : forall m k, In m (cache_keys c) -> In k (cache_keys c) -> m mod n = k mod n -> m = k).
  { intros m k Hm Hk E. apply in_keys in Hm as (i & e & He & <-). apply in_keys in Hk as (j & f & Hf & <-).
    pose proof (P _ _ He). pose proof (P _ _ Hf). assert (i = j) by congruence. subst j. congruence. }
  split; [|split; [exact A|]].
  - intros m. rewrite <- lookup_expected by exact Hn. fold c. rewrite (get_slot n) by exact L.
    rewrite in_keys. split.
    + intros (i & e & He & <-). pose proof (P _ _ He) as Q. rewrite Q, He, Nat.eqb_refl. discriminate.
    + destruct (slot c (m mod n)) as [e|] eqn:E; [|congruence].
      destruct (Nat.eqb_spec (e_id e) m); [eauto|congruence].
  - split.
    + unfold placed, slot in P. unfold cache_keys. clearbody c. destruct c as [sl r]. cbn in *. clear A.
      assert (G : forall l k, (forall i e, nth_error l i = Some (Some e) -> e_id e mod n = i + k) ->
        NoDup (flat_map (fun s : option (entry Obj) => match s with Some e => [e_id e] | None => [] end) l)).
      { induction l as [|s l IH]; intros k H; cbn; [constructor|].
        assert (Hl : NoDup (flat_map (fun s : option (entry Obj) => match s with Some e => [e_id e] | None => [] end) l)).
        { apply (IH (S k)). intros i e He. rewrite (H (S i) e He). lia. }
        destruct s as [e|]; [|exact Hl]. cbn. constructor; [|exact Hl].
        rewrite in_flat_map. intros (s & Hs & Hm). destruct s as [f|]; [|destruct Hm]. destruct Hm as [Hm|[]].
        apply In_nth_error in Hs as [i Hi]. pose proof (H (S i) f Hi). pose proof (H 0 e eq_refl).
        rewrite Hm in *. lia. }
      apply (G sl 0). intros i e He. rewrite Nat.add_0_r. apply P. now rewrite He.
    + rewrite <- L. unfold cache_keys. clear. destruct c as [sl r]. cbn.
      induction sl as [|[e|] l IH]; cbn; lia.
Qed.

(** Ownership of memory. *)
Definition mem_of (s : option (entry Obj)) : list nat :=
  match s with Some e => match e_mem e with Some t => [t] | None => [] end | None => [] end.

Lemma owned_set (l : list (option (entry Obj))) i s x : nth_error l i = Some s ->
  Permutation (mem_of s ++ flat_map mem_of (set_nth i x l)) (mem_of x ++ flat_map mem_of l).
Proof.
  revert i; induction l as [|y l IH]; intros [|i] E; cbn in E; try discriminate.
  - injection E as ->. cbn. rewrite !app_assoc. apply Permutation_app_tail, Permutation_app_comm.
  - cbn. specialize (IH i E).
    rewrite !app_assoc, (Permutation_app_comm (mem_of s) (mem_of y)), (Permutation_app_comm (mem_of x) (mem_of y)).
    rewrite <- !app_assoc. now apply Permutation_app_head.
Qed.

Lemma release_slot_mem c i :
  Permutation (released (release_slot c i) ++ owned (release_slot c i)) (released c ++ owned c).
Proof.
  unfold release_slot. destruct (slot c i) as [e|] eqn:E; [|reflexivity].
  unfold slot in E. destruct (nth_error (slots c) i) as [s|] eqn:En; [|discriminate]. subst s.
  pose proof (owned_set (slots c) i (Some e) None En) as P.
  change (owned ?c) with (flat_map mem_of (slots c)) in *. cbn [slots released] in *.
  change (mem_of None) with (@nil nat) in P. cbn [app] in P.
  rewrite <- P. unfold mem_of at 2. destruct (e_mem e); cbn [app].
  - apply Permutation_middle.
  - reflexivity.
Qed.

Lemma run_mem n ops : 0 < n ->
  Permutation (released (cache_run n ops) ++ owned (cache_run n ops)) (handed ops).
Proof.
  intros Hn. induction ops as [|op ops IH] using rev_ind.
  - cbn. change (owned (cache_new n)) with (flat_map mem_of (repeat (@None (entry Obj)) n)).
    clear. induction n; cbn; auto.
  - rewrite run_snoc. unfold handed. rewrite flat_map_app. fold (handed ops).
    pose proof (run_length n ops) as L. set (c := cache_run n ops) in *. clearbody c.
    rewrite <- IH. destruct op as [m o t|m|]; cbn [cache_step flat_map].
    + unfold cache_put, buf_idx. cbn [e_id]. rewrite L.
      set (i := m mod n). assert (Hi : i < n) by (apply Nat.mod_upper_bound; lia).
      cbn [released]. change (owned ?c) with (flat_map mem_of (slots c)). cbn [slots].
      pose proof (slot_release_slot c i i) as E. rewrite Nat.eqb_refl in E. unfold slot in E.
      destruct (nth_error (slots (release_slot c i)) i) as [s|] eqn:En.
      2:{ apply nth_error_None in En. rewrite release_slot_length in En. lia. }
      subst s.
      pose proof (owned_set _ i None (Some {| e_obj := o; e_id := m; e_mem := t |}) En) as P.
      cbn [mem_of app e_mem] in P. rewrite P. rewrite app_nil_r.
      rewrite <- (release_slot_mem c i). change (owned (release_slot c i)) with (flat_map mem_of (slots (release_slot c i))).
      rewrite !app_assoc. rewrite (Permutation_app_comm (released (release_slot c i))), <- app_assoc.
      apply Permutation_app_comm.
    + rewrite app_nil_r. unfold cache_release. destruct (slot c (buf_idx c m)) as [e|]; [|reflexivity].
      destruct (e_id e =? m); [apply release_slot_mem|reflexivity].
    + rewrite app_nil_r. unfold cache_clear. generalize (seq 0 (length (slots c))). intros l. clear.
      revert c; induction l as [|i l IH]; intros c; cbn; [reflexivity|]. rewrite IH. apply release_slot_mem.
Qed.

Lemma clear_owns_nothing n ops : 0 < n -> owned (cache_run n (ops ++ [Clear])) = [] /\ cache_keys (cache_run n (ops ++ [Clear])) = [].
Proof.
  intros Hn. rewrite run_snoc. cbn [cache_step]. pose proof (run_length n ops) as L.
  set (c := cache_run n ops) in *. clearbody c.
  assert (A : forall s, In s (slots (cache_clear c)) -> s = None).
  { intros s Hs. apply In_nth_error in Hs as [i Hi].
    pose proof (slot_clear (seq 0 (length (slots c))) c i) as E. unfold slot in E at 1. fold (cache_clear c) in E. rewrite Hi in E.
    destruct (in_dec _ _ _) as [H|H]; [exact E|].
    exfalso. apply H, in_seq. assert (i < length (slots (cache_clear c))) by (apply nth_error_Some; congruence).
    unfold cache_clear in H0. rewrite clear_length in H0. lia. }
  change (owned ?c) with (flat_map mem_of (slots c)). unfold cache_keys.
  induction (slots (cache_clear c)) as [|s l IH]; [auto|]. rewrite (A s) by now left. cbn. apply IH. intros; apply A; now right.
Qed.
End Proofs.
