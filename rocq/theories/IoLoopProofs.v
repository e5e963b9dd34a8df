From Coq Require Import List Arith Bool Lia.
From Verif Require Import IoLoopModel IoLoopSpec.
Import ListNotations.

(** Thinned lists. *)
Lemma thin_refl {A} (l : list A) : thinned l l.
Proof. induction l; [apply thin_nil|apply thin_keep; auto]. Qed.
Lemma thin_empty {A} (l : list A) : thinned [] l.
Proof. induction l; constructor; auto. Qed.
Lemma thin_trans {A} (a b c : list A) : thinned a b -> thinned b c -> thinned a c.
Proof.
  intros H1 H2. revert a H1. induction H2 as [|x b c H IH|x b c H IH]; intros a H1; [exact H1|apply thin_drop; auto|].
  inversion H1; subst; [apply thin_drop; auto|apply thin_keep; auto].
Qed.
Lemma thin_app {A} (a b c d : list A) : thinned a b -> thinned c d -> thinned (a ++ c) (b ++ d).
Proof. intros H1 H2. induction H1; cbn; [exact H2|apply thin_drop; auto|apply thin_keep; auto]. Qed.
Lemma thin_tail {A} (x y : A) (a b : list A) : thinned (x :: a) (y :: b) -> thinned a b.
Proof. intros H. inversion H; subst; auto. eapply thin_trans; [|eassumption]. apply thin_drop, thin_refl. Qed.
Lemma thin_in {A} (a b : list A) x : thinned a b -> In x a -> In x b.
Proof. intros H. induction H; cbn; intros I; auto; tauto. Qed.
Lemma thin_len {A} (a b : list A) : thinned a b -> length a <= length b.
Proof. intros H. induction H; cbn; lia. Qed.

(** Picking. *)
Lemma pick_split u l m r : pick u l = Some (m, r) ->
  exists a b, l = a ++ m :: b /\ r = a ++ b /\ unit_ m = u /\ forall x, In x a -> unit_ x <> u.
Proof.
  revert m r. induction l as [|y l IH]; cbn; intros m r H; [discriminate|]. unfold is_of in H. destruct (unit_ y =? u) eqn:E.
  - injection H as <- <-. exists [], l. apply Nat.eqb_eq in E. repeat (split; auto).
  - destruct (pick u l) as [[x r']|] eqn:P; [|discriminate]. injection H as <- <-. destruct (IH x r' eq_refl) as (a & b & -> & -> & U & N).
    exists (y :: a), b. repeat split; auto. intros z [<-|I]; [now apply Nat.eqb_neq|auto].
Qed.
Lemma pick_some u l m : In m l -> unit_ m = u -> pick u l <> None.
Proof.
  intros I U. induction l as [|y l IH]; [destruct I|]. cbn. destruct (is_of u y) eqn:E; [discriminate|]. destruct I as [<-|I].
  - unfold is_of in E. apply Nat.eqb_neq in E. congruence.
  - specialize (IH I). destruct (pick u l) as [[? ?]|]; [discriminate|congruence].
Qed.
Lemma got_app u c a b : got u c (a ++ b) = got u c a ++ got u c b.
Proof. unfold got. now rewrite filter_app, map_app. Qed.
Lemma got_no u c a : (forall x, In x a -> unit_ x <> u) -> got u c a = [].
Proof.
  unfold got. induction a as [|x a IH]; cbn; intros H; [reflexivity|]. assert (E : (unit_ x =? u) = false) by (apply Nat.eqb_neq, H; auto).
  rewrite E. cbn. apply IH. auto.
Qed.
Lemma got_pick u l m r : pick u l = Some (m, r) -> forall v c, got v c l = got v c (m :: r).
Proof.
  intros P v c. destruct (pick_split _ _ _ _ P) as (a & b & -> & -> & U & N). rewrite got_app.
  change (m :: a ++ b) with ([m] ++ a ++ b). change (m :: b) with ([m] ++ b). rewrite !got_app.
  destruct (Nat.eq_dec v u) as [->|NE]; [rewrite (got_no u c a) by auto; reflexivity|].
  rewrite (got_no v c [m]) by (intros x [<-|[]]; congruence). reflexivity.
Qed.
Lemma pick_len u l m r : pick u l = Some (m, r) -> length l = S (length r).
Proof. intros P. destruct (pick_split _ _ _ _ P) as (a & b & -> & -> & _). rewrite !app_length. cbn. lia. Qed.
Lemma thin_pick u l m r : pick u l = Some (m, r) -> thinned r l.
Proof. intros P. destruct (pick_split _ _ _ _ P) as (a & b & -> & -> & _). apply thin_app; [apply thin_refl|apply thin_drop, thin_refl]. Qed.
Lemma thin_map {A B} (f : A -> B) a b : thinned a b -> thinned (map f a) (map f b).
Proof. intros H. induction H; cbn; [apply thin_nil|apply thin_drop; auto|apply thin_keep; auto]. Qed.
Lemma ctl_got u l : length (filter (ctl_of u) l) = length (got u true l).
Proof. unfold got. rewrite map_length. f_equal. apply filter_ext. intros m. unfold ctl_of, is_of. destruct (ctl m); reflexivity. Qed.
Lemma used_got s u : used s u = length (got u true (inbox s)) + length (got u true (waiting s)) + length (got u true (working s)).
Proof. unfold used. rewrite !ctl_got. reflexivity. Qed.

Lemma run_app verdict n s l1 l2 : run verdict n s (l1 ++ l2) = match run verdict n s l1 with Some s' => run verdict n s' l2 | None => None end.
Proof. revert s. induction l1 as [|e l1 IH]; intros s; cbn; [reflexivity|]. destruct (step verdict n s e); auto. Qed.
Lemma run_snoc verdict n s l e s' : run verdict n s (l ++ [e]) = Some s' -> exists s1, run verdict n s l = Some s1 /\ step verdict n s1 e = Some s'.
Proof. rewrite run_app. destruct (run verdict n s l) as [s1|]; [|discriminate]. cbn. intros H. exists s1. split; [reflexivity|]. destruct (step verdict n s1 e); [exact H|discriminate]. Qed.

(** The requests among the events, those waiting to be handled, those for unit [u]. *)
Definition reqs (l : list event) : list request := flat_map (fun e => match e with Request q => [q] | _ => [] end) l.
Definition down_reqs (d : list item) : list request := flat_map (fun i => match i with Req q => [q] | Ack _ => [] end) d.
Definition blocked (x : reader) : list request := match x with Blocked u r => [Ask u r] | _ => [] end.
Definition asks (u : nat) (l : list request) : list nat := flat_map (fun q => match q with Ask v r => if v =? u then [r] else [] | Quick _ => [] end) l.

Lemma requests_reqs l : requests l = map num (reqs l).
Proof. induction l as [|e l IH]; [reflexivity|]. change (requests (e :: l)) with ((match e with Request (Ask _ r) => [r] | Request (Quick r) => [r] | _ => [] end) ++ requests l). change (reqs (e :: l)) with ((match e with Request q => [q] | _ => [] end) ++ reqs l). rewrite map_app, <- IH. destruct e as [[? ?|?]| | | | | | | | | |]; reflexivity. Qed.
Lemma changes_reqs u l : changes u l = asks u (reqs l).
Proof.
  induction l as [|e l IH]; [reflexivity|]. unfold asks. change (reqs (e :: l)) with ((match e with Request q => [q] | _ => [] end) ++ reqs l). rewrite flat_map_app. fold (asks u (reqs l)). rewrite <- IH.
  destruct e as [[? ?|?]| | | | | | | | | |]; cbn; rewrite ?app_nil_r; reflexivity.
Qed.
Lemma asks_app u a b : asks u (a ++ b) = asks u a ++ asks u b.
Proof. apply flat_map_app. Qed.
Lemma reqs_app a b : reqs (a ++ b) = reqs a ++ reqs b.
Proof. apply flat_map_app. Qed.
Lemma others_app u a b : others u (a ++ b) = others u a ++ others u b.
Proof. apply flat_map_app. Qed.
Lemma down_app a b : down_reqs (a ++ b) = down_reqs a ++ down_reqs b.
Proof. apply flat_map_app. Qed.

Definition answers (d : list item) : list bool := flat_map (fun i => match i with Ack b => [b] | Req _ => [] end) d.
Lemma answers_app a b : answers (a ++ b) = answers a ++ answers b.
Proof. apply flat_map_app. Qed.
Definition avail (verdict : message -> bool) (s : st) : list bool := ackq s ++ answers (down s) ++ map verdict (reports s).

Definition inv (verdict : message -> bool) (l : list event) (s : st) : Prop :=
  exists dn,
    reqs l = dn ++ blocked (io s) ++ down_reqs (down s) /\
    prefix (replies s) (map num dn) /\ (io s <> Gone -> replies s = map num dn) /\
    (forall u, asks u dn = got u true (given s ++ waiting s ++ inbox s)) /\
    (forall u, others u l = got u false (given s ++ waiting s ++ inbox s)) /\
    (forall u, length (got u true (working s)) <= length (got u true (given s))) /\
    (eof s = false -> io s <> Gone) /\
    (eof s = false -> thinned (map verdict (waiting s)) (avail verdict s)).

Lemma inv_init verdict : inv verdict [] init.
Proof. exists []. cbn. repeat split; auto; try discriminate. - exists []. reflexivity. - intros _. constructor. Qed.

Lemma prefix_refl {A} (a : list A) : prefix a a.
Proof. exists []. now rewrite app_nil_r. Qed.
Lemma prefix_more {A} (a b c : list A) : prefix a b -> prefix a (b ++ c).
Proof. intros (d & ->). exists (d ++ c). now rewrite app_assoc. Qed.

Ltac fields := cbn [down eof io inbox waiting working reports ackq replies given outcomes set_down set_io reply publish hand_over] in *.

Lemma hand_over_inv verdict l s e m o w a :
  inv verdict l s -> reqs [e] = [] -> (forall u, others u [e] = []) ->
  (forall u c, got u c (waiting s) = got u c (m :: w)) ->
  (eof s = false -> thinned (map verdict w) (a ++ answers (down s) ++ map verdict (reports s))) ->
  inv verdict (l ++ [e]) (hand_over s m o w a).
Proof.
  intros (dn & R & P & P2 & A & O & W & G & T) RE OE GW TH. exists dn. fields.
  assert (GG : forall u c, got u c ((given s ++ [m]) ++ w ++ inbox s) = got u c (given s ++ waiting s ++ inbox s)).
  { intros u c. rewrite !got_app, GW. change (m :: w) with ([m] ++ w). rewrite got_app, <- !app_assoc. reflexivity. }
  rewrite reqs_app, RE, app_nil_r. repeat split; auto.
  - intros u. rewrite GG. apply A.
  - intros u. rewrite others_app, OE, app_nil_r, GG. apply O.
  - intros u. rewrite !got_app, !app_length. specialize (W u). lia.
Qed.

Lemma publish_inv u r dn verdict l (s s' : st) (bad : bool) :
  (forall v, asks v dn = got v true (given s ++ waiting s ++ inbox s)) ->
  (forall v, others v l = got v false (given s ++ waiting s ++ inbox s)) ->
  given s' = given s -> waiting s' = waiting s -> inbox s' = inbox s ++ [Msg u true r] ->
  (forall v, asks v (dn ++ [Ask u r]) = got v true (given s' ++ waiting s' ++ inbox s')) /\
  (forall v, others v l = got v false (given s' ++ waiting s' ++ inbox s')) /\ verdict = verdict :> (message -> bool) /\ bad = bad.
Proof.
  intros A O G W I. rewrite G, W, I. repeat split; auto; intros v.
  - rewrite asks_app, A, !got_app, <- !app_assoc. do 3 f_equal. cbn. unfold got. cbn. rewrite app_nil_r. destruct (u =? v); reflexivity.
  - rewrite O, !got_app. do 3 f_equal. unfold got. cbn. destruct (u =? v); rewrite app_nil_r; reflexivity.
Qed.

Lemma inv_step verdict n l s e s' : inv verdict l s -> step verdict n s e = Some s' -> inv verdict (l ++ [e]) s'.
Proof.
  intros IV H. pose proof IV as (dn & R & P & P2 & A & O & W & G & T).
  destruct e as [q|u k| |bad|bad|u| | |u|u|u]; cbn [step] in H.
  - destruct (eof s) eqn:E; [discriminate|]. injection H as <-. exists dn. fields. rewrite reqs_app, R, down_app. cbn [reqs flat_map down_reqs]. rewrite !app_nil_r, <- !app_assoc.
    repeat split; auto.
    + intros u. rewrite others_app. cbn. rewrite app_nil_r. apply O.
    + intros _. specialize (T eq_refl). unfold avail in *. fields. rewrite answers_app. cbn [answers flat_map]. rewrite app_nil_r. exact T.
  - injection H as <-. exists dn. fields. rewrite reqs_app. cbn. rewrite app_nil_r. repeat split; auto.
    + intros v. rewrite A, !got_app. do 2 f_equal. unfold got. cbn. destruct (u =? v); cbn; now rewrite app_nil_r.
    + intros v. rewrite others_app, O, !got_app, <- !app_assoc. do 3 f_equal. unfold got. cbn. destruct (u =? v); cbn; rewrite ?app_nil_r; reflexivity.
  - destruct (eof s) eqn:E; [discriminate|]. injection H as <-. exists dn. fields. rewrite reqs_app. cbn. rewrite app_nil_r. repeat split; auto; try discriminate.
    intros u. rewrite others_app. cbn. rewrite app_nil_r. apply O.
  - destruct (io s) as [|?|] eqn:IO; try discriminate. destruct (bad && negb (eof s)) eqn:BE; [discriminate|].
    assert (EB : eof s = false -> bad = false) by (intros Z; rewrite Z in BE; destruct bad; auto; discriminate).
    unfold read in H. destruct (down s) as [|[[u r|r]|b] d] eqn:D; cbn [down_reqs flat_map] in R; fold down_reqs in R.
    + destruct (eof s && negb bad) eqn:E; [|discriminate]. injection H as <-. apply andb_true_iff in E as [E _]. exists dn. fields. rewrite reqs_app, D. cbn. rewrite app_nil_r.
      repeat split; auto; try congruence. intros u. rewrite others_app. cbn. rewrite app_nil_r. apply O.
    + destruct (used s u <? n); [|destruct bad; [discriminate|]]; injection H as <-.
      * destruct (publish_inv u r dn verdict l s (reply (publish (set_down s d) (Msg u true r)) bad r) bad A O eq_refl eq_refl eq_refl) as (A' & O' & _).
        exists (dn ++ [Ask u r]). fields. rewrite reqs_app, map_app. cbn [map num]. repeat split; auto.
        -- rewrite R. cbn. rewrite app_nil_r, <- app_assoc. destruct bad; reflexivity.
        -- destruct bad; [apply prefix_more, P|]. rewrite P2 by discriminate. apply prefix_refl.
        -- destruct bad; [congruence|]. intros _. rewrite P2 by discriminate. reflexivity.
        -- intros v. rewrite others_app. cbn [others flat_map]. rewrite app_nil_r. apply O'.
        -- intros E. rewrite (EB E). discriminate.
        -- intros E. specialize (T E). unfold avail in *. fields. rewrite D in T. exact T.
      * exists dn. fields. rewrite reqs_app. cbn [reqs flat_map]. rewrite app_nil_r. repeat split; auto; try discriminate.
        -- intros _. apply P2. discriminate.
        -- intros v. rewrite others_app. cbn [others flat_map]. rewrite app_nil_r. apply O.
        -- intros E. specialize (T E). unfold avail in *. fields. rewrite D in T. exact T.
    + injection H as <-. exists (dn ++ [Quick r]). fields. rewrite reqs_app, map_app. cbn [map num]. repeat split; auto.
      * rewrite R. cbn. rewrite app_nil_r, <- app_assoc. destruct bad; reflexivity.
      * destruct bad; [apply prefix_more, P|]. rewrite P2 by discriminate. apply prefix_refl.
      * destruct bad; [congruence|]. intros _. rewrite P2 by discriminate. reflexivity.
      * intros v. rewrite asks_app. cbn. rewrite app_nil_r. apply A.
      * intros v. rewrite others_app. cbn [others flat_map]. rewrite app_nil_r. apply O.
      * intros E. rewrite (EB E). discriminate.
      * intros E. specialize (T E). unfold avail in *. fields. rewrite D in T. exact T.
    + destruct bad; [discriminate|]. injection H as <-. exists dn. fields. rewrite reqs_app, IO. cbn [reqs flat_map]. rewrite app_nil_r. repeat split; auto; try discriminate.
      * intros v. rewrite others_app. cbn [others flat_map]. rewrite app_nil_r. apply O.
      * intros E. specialize (T E). unfold avail in *. fields. rewrite D in T. rewrite <- app_assoc. exact T.
  - destruct (io s) as [|u r|] eqn:IO; try discriminate. destruct ((used s u <? n) && (negb bad || eof s)) eqn:C; [|discriminate]. injection H as <-.
    apply andb_true_iff in C as [_ BE]. assert (EB : eof s = false -> bad = false) by (intros Z; rewrite Z in BE; destruct bad; auto; discriminate).
    destruct (publish_inv u r dn verdict l s (reply (publish s (Msg u true r)) bad r) bad A O eq_refl eq_refl eq_refl) as (A' & O' & _).
    exists (dn ++ [Ask u r]). fields. rewrite reqs_app, map_app. cbn [map num]. repeat split; auto.
    + rewrite R. cbn. rewrite app_nil_r, <- app_assoc. destruct bad; reflexivity.
    + destruct bad; [apply prefix_more, P|]. rewrite P2 by discriminate. apply prefix_refl.
    + destruct bad; [congruence|]. intros _. rewrite P2 by discriminate. reflexivity.
    + intros v. rewrite others_app. cbn [others flat_map]. rewrite app_nil_r. apply O'.
    + intros E. rewrite (EB E). discriminate.
  - destruct (existsb _ _); [discriminate|]. destruct (pick u (inbox s)) as [[m r]|] eqn:PK; [|discriminate]. injection H as <-.
    assert (GG : forall v c, got v c (given s ++ (waiting s ++ [m]) ++ r) = got v c (given s ++ waiting s ++ inbox s)).
    { intros v c. rewrite !got_app, (got_pick _ _ _ _ PK v c). change (m :: r) with ([m] ++ r). rewrite got_app, <- !app_assoc. reflexivity. }
    exists dn. fields. rewrite reqs_app. cbn [reqs flat_map]. rewrite app_nil_r. repeat split; auto.
    + intros v. rewrite GG. apply A.
    + intros v. rewrite others_app, GG. cbn [others flat_map]. rewrite app_nil_r. apply O.
    + intros E. specialize (T E). unfold avail in *. fields. rewrite E, !map_app, !app_assoc. apply thin_app; [rewrite <- app_assoc; exact T|apply thin_refl].
  - destruct (eof s) eqn:E; [discriminate|]. destruct (reports s) as [|m r] eqn:RP; [discriminate|]. injection H as <-.
    exists dn. fields. rewrite reqs_app, down_app. cbn [reqs flat_map down_reqs]. rewrite !app_nil_r. repeat split; auto.
    + intros v. rewrite others_app. cbn [others flat_map]. rewrite app_nil_r. apply O.
    + intros _. specialize (T eq_refl). unfold avail in *. fields. rewrite RP in T. rewrite answers_app, <- app_assoc. exact T.
  - destruct (waiting s) as [|m w] eqn:WT; [discriminate|]. destruct (ackq s) as [|b a] eqn:AQ; [discriminate|]. injection H as <-.
    apply hand_over_inv; auto; [rewrite WT; reflexivity|]. intros E. specialize (T E). unfold avail in T. rewrite AQ in T. cbn in T. eapply thin_tail, T.
  - destruct (pick u (waiting s)) as [[m w]|] eqn:PK; [|discriminate]. injection H as <-. apply hand_over_inv; auto; [apply (got_pick _ _ _ _ PK)|].
    intros E. specialize (T E). eapply thin_trans; [apply thin_map, (thin_pick _ _ _ _ PK)|exact T].
  - destruct (negb (eof s)) eqn:E; [discriminate|]. destruct (pick u (waiting s)) as [[m w]|] eqn:PK; [|discriminate]. injection H as <-. apply hand_over_inv; auto; [apply (got_pick _ _ _ _ PK)|].
    intros E2. rewrite E2 in E. discriminate.
  - destruct (pick u (working s)) as [[m w]|] eqn:PK; [|discriminate]. injection H as <-. exists dn. fields. rewrite reqs_app. cbn [reqs flat_map]. rewrite app_nil_r. repeat split; auto.
    + intros v. rewrite others_app. cbn [others flat_map]. rewrite app_nil_r. apply O.
    + intros v. specialize (W v). rewrite (got_pick _ _ _ _ PK v true) in W. change (m :: w) with ([m] ++ w) in W. rewrite got_app, app_length in W. lia.
Qed.

Lemma inv_run verdict n l s : run verdict n init l = Some s -> inv verdict l s.
Proof.
  revert s. induction l as [|e l IH] using rev_ind; intros s H; [injection H as <-; apply inv_init|].
  apply run_snoc in H as (s1 & R & S). eapply inv_step; eauto.
Qed.

(** Steps that are possible. *)
Lemma can_take verdict n s m : waiting s = [] -> working s = [] -> In m (inbox s) -> step verdict n s (Take (unit_ m)) <> None.
Proof.
  intros W K I. cbn [step]. rewrite W, K. cbn [app existsb]. pose proof (pick_some (unit_ m) (inbox s) m I eq_refl) as P. destruct (pick (unit_ m) (inbox s)) as [[? ?]|]; [discriminate|congruence].
Qed.
Lemma can_expire verdict n s m : In m (waiting s) -> step verdict n s (Expire (unit_ m)) <> None.
Proof. intros I. cbn [step]. pose proof (pick_some (unit_ m) _ m I eq_refl) as P. destruct (pick (unit_ m) (waiting s)) as [[? ?]|]; [discriminate|congruence]. Qed.
Lemma can_finish verdict n s m : In m (working s) -> step verdict n s (Finish (unit_ m)) <> None.
Proof. intros I. cbn [step]. pose proof (pick_some (unit_ m) _ m I eq_refl) as P. destruct (pick (unit_ m) (working s)) as [[? ?]|]; [discriminate|congruence]. Qed.
Lemma empty_by {A} (l : list A) : (forall x, ~ In x l) -> l = [].
Proof. destruct l as [|x l]; [reflexivity|]. intros H. exfalso. apply (H x). now left. Qed.

Lemma can_read verdict n s : io s = Reading -> down s <> [] -> step verdict n s (Read false) <> None.
Proof.
  intros I D. cbn [step]. rewrite I. cbn [andb]. unfold read. destruct (down s) as [|[[u r|r]|b] d]; try congruence; try discriminate. destruct (used s u <? n); discriminate.
Qed.

Lemma rest_empty verdict n s : 0 < n -> at_rest verdict n s ->
  waiting s = [] /\ working s = [] /\ inbox s = [] /\ (io s = Gone \/ io s = Reading /\ down s = [] /\ eof s = false).
Proof.
  intros N R.
  assert (W : waiting s = []) by (apply empty_by; intros m I; apply (can_expire verdict n s m I), R; reflexivity).
  assert (K : working s = []) by (apply empty_by; intros m I; apply (can_finish verdict n s m I), R; reflexivity).
  assert (B : inbox s = []) by (apply empty_by; intros m I; apply (can_take verdict n s m W K I), R; reflexivity).
  repeat split; auto. destruct (io s) as [|u r|] eqn:IO; auto.
  - right. destruct (down s) as [|i d] eqn:D.
    + repeat split; auto. destruct (eof s) eqn:E; auto. specialize (R (Read false) eq_refl). cbn [step] in R. rewrite IO in R. cbn in R. unfold read in R. rewrite D, E in R. discriminate.
    + exfalso. apply (can_read verdict n s IO); [congruence|]. apply R. reflexivity.
  - exfalso. specialize (R (Unblock false) eq_refl). cbn [step] in R. rewrite IO in R. unfold used in R. rewrite W, K, B in R. cbn in R. destruct n; [lia|]. discriminate.
Qed.

(** How much is left to do. *)
Definition weight (i : item) : nat := match i with Req (Ask _ _) => 8 | Req (Quick _) => 1 | Ack _ => 1 end.
Definition weigh (d : list item) : nat := list_sum (map weight d).
Definition io_weight (x : reader) : nat := match x with Reading => 1 | Blocked _ _ => 8 | Gone => 0 end.
Definition todo (s : st) : nat := weigh (down s) + io_weight (io s) + 6 * length (inbox s) + 2 * length (waiting s) + length (working s) + 2 * length (reports s).

Lemma weigh_app a b : weigh (a ++ b) = weigh a + weigh b.
Proof. unfold weigh. now rewrite map_app, list_sum_app. Qed.

Lemma todo_step verdict n s e s' : step verdict n s e = Some s' ->
  todo s' + (if own e then 1 else 0) <= todo s + (match e with Request _ => 8 | Outside _ _ => 6 | _ => 0 end).
Proof.
  intros H. unfold todo. destruct e as [q|u k| |bad|bad|u| | |u|u|u]; cbn [step own] in *.
  - destruct (eof s); [discriminate|]. injection H as <-. fields. rewrite weigh_app. unfold weigh at 2. destruct q; cbn; lia.
  - injection H as <-. fields. rewrite app_length. cbn. lia.
  - destruct (eof s); [discriminate|]. injection H as <-. fields. lia.
  - destruct (io s) eqn:IO; try discriminate. destruct (bad && _); [discriminate|]. unfold read in H. destruct (down s) as [|[[u r|r]|b] d] eqn:D.
    + destruct (eof s && _); [|discriminate]. injection H as <-. fields. rewrite D. cbn. lia.
    + change (weigh (Req (Ask u r) :: d)) with (8 + weigh d). destruct (used s u <? n); [|destruct bad; [discriminate|]]; injection H as <-; fields; rewrite ?app_length; [destruct bad; cbn; lia|cbn; lia].
    + change (weigh (Req (Quick r) :: d)) with (1 + weigh d). injection H as <-. fields. destruct bad; cbn; lia.
    + change (weigh (Ack b :: d)) with (1 + weigh d). destruct bad; [discriminate|]. injection H as <-. fields. rewrite IO. cbn. lia.
  - destruct (io s) eqn:IO; try discriminate. destruct (_ && _); [|discriminate]. injection H as <-. fields. rewrite app_length. destruct bad; cbn; lia.
  - destruct (existsb _ _); [discriminate|]. destruct (pick u (inbox s)) as [[m r]|] eqn:P; [|discriminate]. injection H as <-. apply pick_len in P. fields. rewrite P, app_length. destruct (eof s); rewrite ?app_length; cbn; lia.
  - destruct (eof s); [discriminate|]. destruct (reports s) as [|m r]; [discriminate|]. injection H as <-. fields. rewrite weigh_app. unfold weigh at 2. cbn. lia.
  - destruct (waiting s) as [|m w]; [discriminate|]. destruct (ackq s); [discriminate|]. injection H as <-. fields. rewrite app_length. cbn. lia.
  - destruct (pick u (waiting s)) as [[m r]|] eqn:P; [|discriminate]. injection H as <-. apply pick_len in P. fields. rewrite P, app_length. cbn. lia.
  - destruct (negb (eof s)); [discriminate|]. destruct (pick u (waiting s)) as [[m r]|] eqn:P; [|discriminate]. injection H as <-. apply pick_len in P. fields. rewrite P, app_length. cbn. lia.
  - destruct (pick u (working s)) as [[m r]|] eqn:P; [|discriminate]. injection H as <-. apply pick_len in P. fields. rewrite P. cbn. lia.
Qed.

Lemma todo_run verdict n l : forall s s', run verdict n s l = Some s' ->
  todo s' + how_many own l <= todo s + 8 * how_many is_request l + 6 * how_many is_outside l.
Proof.
  induction l as [|e l IH]; cbn [run]; intros s s' H; [injection H as <-; cbn; lia|]. destruct (step verdict n s e) as [s1|] eqn:S; [|discriminate].
  pose proof (todo_step _ _ _ _ _ S) as T. specialize (IH _ _ H). unfold how_many in *. cbn [filter].
  destruct e; cbn [own is_request is_outside] in *; cbn [length]; lia.
Qed.

(** Nothing but time-outs is possible, and nobody is blocked. *)
Lemma timeout_rest verdict n l s : 0 < n -> inv verdict l s -> eof s = false -> waits_for_timeout verdict n s -> (forall u r, io s <> Blocked u r) -> at_rest verdict n s.
Proof.
  intros N (dn & _ & _ & _ & _ & _ & _ & G & T) E WT NB.
  assert (IO : io s = Reading) by (destruct (io s) as [|u r|] eqn:IO; auto; [destruct (NB u r eq_refl)|destruct (G E eq_refl)]).
  assert (D : down s = []). { destruct (down s) eqn:D; auto. exfalso. apply (can_read verdict n s IO); [congruence|]. apply WT; reflexivity. }
  assert (R : reports s = []). { destruct (reports s) eqn:R; auto. exfalso. specialize (WT Serve eq_refl eq_refl). cbn [step] in WT. rewrite E, R in WT. discriminate. }
  assert (W : waiting s = []).
  { specialize (T E). unfold avail in T. rewrite D, R in T. cbn in T. rewrite app_nil_r in T. specialize (WT Get eq_refl eq_refl). cbn [step] in WT.
    destruct (waiting s) as [|m w]; auto. destruct (ackq s); [inversion T|discriminate]. }
  intros e OE. destruct (is_expire e) eqn:X; [|apply WT; auto]. destruct e; try discriminate. cbn [step]. rewrite W. reflexivity.
Qed.

Lemma rest_done verdict n l s : 0 < n -> inv verdict l s -> eof s = false -> at_rest verdict n s -> all_done l s.
Proof.
  intros N (dn & R & P & P2 & A & O & W & G & T) E AR. destruct (rest_empty _ _ _ N AR) as (W0 & K0 & B0 & [IO|(IO & D0 & _)]); [destruct (G E IO)|].
  rewrite IO, D0 in R. cbn in R. rewrite !app_nil_r in R. subst dn. split.
  - rewrite requests_reqs. apply P2. congruence.
  - intros u. rewrite changes_reqs, A, O, W0, B0. cbn [app]. rewrite app_nil_r. auto.
Qed.

Lemma modest_prefix verdict n l1 l2 : modest verdict n (l1 ++ l2) -> modest verdict n l1.
Proof. intros M a b s u -> R. apply (M a (b ++ l2) s u); auto. now rewrite app_assoc. Qed.

Lemma modest_reads verdict n l : forall s, run verdict n init l = Some s -> modest verdict n l -> forall u r, io s <> Blocked u r.
Proof.
  induction l as [|e l IH] using rev_ind; intros s H M u r; [injection H as <-; discriminate|].
  apply run_snoc in H as (s1 & R & S). pose proof (inv_run _ _ _ _ R) as (dn & RQ & _ & _ & A & _ & W & _).
  pose proof (IH s1 R (modest_prefix _ _ _ _ M)) as NB.
  destruct e as [q|v k| |bad|bad|v| | |v|v|v]; cbn [step] in S.
  - destruct (eof s1); [discriminate|]. injection S as <-. apply NB.
  - injection S as <-. apply NB.
  - destruct (eof s1); [discriminate|]. injection S as <-. apply NB.
  - destruct (io s1) eqn:IO; try discriminate. destruct (bad && _); [discriminate|]. unfold read in S. destruct (down s1) as [|[[v k|k]|b] d] eqn:D.
    + destruct (eof s1 && _); [|discriminate]. injection S as <-. discriminate.
    + destruct (used s1 v <? n) eqn:U; [injection S as <-; fields; destruct bad; discriminate|]. exfalso. apply Nat.ltb_ge in U. rewrite used_got in U.
      pose proof (M l [Read bad] s1 v eq_refl R) as L. unfold finished in L. rewrite changes_reqs, RQ, !asks_app, A, !got_app, !app_length in L. specialize (W v).
      cbn [down_reqs flat_map app asks] in L. rewrite Nat.eqb_refl in L. cbn [app length blocked flat_map] in L. lia.
    + injection S as <-. fields. destruct bad; discriminate.
    + destruct bad; [discriminate|]. injection S as <-. fields. congruence.
  - destruct (io s1); try discriminate. destruct (_ && _); [|discriminate]. injection S as <-. fields. destruct bad; discriminate.
  - destruct (existsb _ _); [discriminate|]. destruct (pick v (inbox s1)) as [[? ?]|]; [|discriminate]. injection S as <-. apply NB.
  - destruct (eof s1); [discriminate|]. destruct (reports s1); [discriminate|]. injection S as <-. apply NB.
  - destruct (waiting s1); [discriminate|]. destruct (ackq s1); [discriminate|]. injection S as <-. apply NB.
  - destruct (pick v (waiting s1)) as [[? ?]|]; [|discriminate]. injection S as <-. apply NB.
  - destruct (negb (eof s1)); [discriminate|]. destruct (pick v (waiting s1)) as [[? ?]|]; [|discriminate]. injection S as <-. apply NB.
  - destruct (pick v (working s1)) as [[? ?]|]; [|discriminate]. injection S as <-. apply NB.
Qed.

(** Answers and reports without time-outs. *)
Definition matched (verdict : message -> bool) (s : st) : Prop :=
  (forall m o, In (m, o) (outcomes s) -> o = if verdict m then Recorded else Refused) /\ prefix (avail verdict s) (map verdict (waiting s)) /\ (eof s = false -> avail verdict s = map verdict (waiting s)).

Lemma matched_same verdict s s' : matched verdict s -> outcomes s' = outcomes s -> avail verdict s' = avail verdict s -> waiting s' = waiting s -> (eof s' = false -> eof s = false) -> matched verdict s'.
Proof. intros (A & B & C) O V W E. unfold matched. rewrite O, V, W. auto. Qed.

Lemma matched_step verdict n s e s' : matched verdict s -> is_expire e = false -> is_fail e = false -> step verdict n s e = Some s' -> matched verdict s'.
Proof.
  intros M NX NF S. pose proof M as (A & B & C).
  destruct e as [q|v k| |bad|bad|v| | |v|v|v]; try discriminate; cbn [step] in S.
  - destruct (eof s) eqn:E; [discriminate|]. injection S as <-. eapply matched_same; eauto. unfold avail. fields. rewrite answers_app. cbn. now rewrite app_nil_r.
  - injection S as <-. eapply matched_same; eauto.
  - destruct (eof s); [discriminate|]. injection S as <-. eapply matched_same; eauto. fields. discriminate.
  - destruct (io s) eqn:IO; try discriminate. destruct (bad && _); [discriminate|]. unfold read in S. destruct (down s) as [|[[v k|k]|b] d] eqn:D.
    + destruct (eof s && _); [|discriminate]. injection S as <-. eapply matched_same; eauto.
    + destruct (used s v <? n); [|destruct bad; [discriminate|]]; injection S as <-; (eapply matched_same; eauto; unfold avail; fields; rewrite D; reflexivity).
    + injection S as <-. eapply matched_same; eauto. unfold avail. fields. rewrite D. reflexivity.
    + destruct bad; [discriminate|]. injection S as <-. eapply matched_same; eauto. unfold avail. fields. rewrite D, <- app_assoc. reflexivity.
  - destruct (io s); try discriminate. destruct (_ && _); [|discriminate]. injection S as <-. eapply matched_same; eauto.
  - destruct (existsb _ _); [discriminate|]. destruct (pick v (inbox s)) as [[m r]|]; [|discriminate]. injection S as <-. unfold matched, avail in *. fields. split; [exact A|]. rewrite map_app. destruct (eof s) eqn:E.
    + split; [apply prefix_more, B|discriminate].
    + rewrite map_app. specialize (C eq_refl). rewrite app_assoc in C. rewrite !app_assoc, C. split; [apply prefix_refl|reflexivity].
  - destruct (eof s) eqn:E; [discriminate|]. destruct (reports s) as [|m r] eqn:R; [discriminate|]. injection S as <-. eapply matched_same; eauto. unfold avail. fields. rewrite R, answers_app, <- app_assoc. reflexivity.
  - destruct (waiting s) as [|m w] eqn:W; [discriminate|]. destruct (ackq s) as [|b a] eqn:Q; [discriminate|]. injection S as <-. unfold matched, avail in *. fields. rewrite Q, W in *. cbn [app map] in *.
    assert (V : b = verdict m) by (destruct B as (c & B); injection B as B _; auto). split; [|split].
    + intros x o I. apply in_app_or in I as [I|[[= <- <-]|[]]]; [auto|]. rewrite V. reflexivity.
    + destruct B as (c & B). injection B as _ B. exists c. exact B.
    + intros E. specialize (C E). injection C as _ C. exact C.
  - destruct (pick v (working s)) as [[? ?]|]; [|discriminate]. injection S as <-. eapply matched_same; eauto.
Qed.

Lemma matched_run verdict n l : forall s s', matched verdict s -> how_many is_expire l = 0 -> how_many is_fail l = 0 -> run verdict n s l = Some s' -> matched verdict s'.
Proof.
  induction l as [|e l IH]; intros s s' M X F R; cbn [run] in R; [injection R as <-; exact M|]. destruct (step verdict n s e) as [s1|] eqn:S; [|discriminate].
  unfold how_many in *. cbn [filter] in X, F. destruct (is_expire e) eqn:XE; [discriminate|]. destruct (is_fail e) eqn:FE; [discriminate|].
  eapply IH; [eapply matched_step; eauto|assumption|assumption|exact R].
Qed.

(** After the end of the reader. *)
Lemma gone_step verdict n s e s' : io s = Gone -> ackq s = [] -> step verdict n s e = Some s' ->
  io s' = Gone /\ ackq s' = [] /\ exists x, outcomes s' = outcomes s ++ x /\ forall m o, In (m, o) x -> o = Late \/ o = Lost.
Proof.
  intros G Q S.
  assert (SAME : forall s2, io s2 = Gone -> ackq s2 = [] -> outcomes s2 = outcomes s -> io s2 = Gone /\ ackq s2 = [] /\ exists x, outcomes s2 = outcomes s ++ x /\ forall m o, In (m, o) x -> o = Late \/ o = Lost).
  { intros s2 A B C. repeat split; auto. exists []. rewrite C, app_nil_r. split; auto. intros m o []. }
  destruct e as [q|v k| |bad|bad|v| | |v|v|v]; cbn [step] in S; rewrite ?G in S; try discriminate.
  - destruct (eof s); [discriminate|]. injection S as <-. apply SAME; auto.
  - injection S as <-. apply SAME; auto.
  - destruct (eof s); [discriminate|]. injection S as <-. apply SAME; auto.
  - destruct (existsb _ _); [discriminate|]. destruct (pick v (inbox s)) as [[m r]|]; [|discriminate]. injection S as <-. apply SAME; auto.
  - destruct (eof s); [discriminate|]. destruct (reports s); [discriminate|]. injection S as <-. apply SAME; auto.
  - rewrite Q in S. destruct (waiting s); discriminate.
  - destruct (pick v (waiting s)) as [[m w]|]; [|discriminate]. injection S as <-. fields. repeat split; auto. eexists. split; [reflexivity|]. intros x o [[= <- <-]|[]]. auto.
  - destruct (negb (eof s)); [discriminate|]. destruct (pick v (waiting s)) as [[m w]|]; [|discriminate]. injection S as <-. fields. repeat split; auto. eexists. split; [reflexivity|]. intros x o [[= <- <-]|[]]. auto.
  - destruct (pick v (working s)) as [[m w]|]; [|discriminate]. injection S as <-. apply SAME; auto.
Qed.

Lemma gone_run verdict n l : forall s s', io s = Gone -> ackq s = [] -> run verdict n s l = Some s' ->
  exists x, outcomes s' = outcomes s ++ x /\ forall m o, In (m, o) x -> o = Late \/ o = Lost.
Proof.
  induction l as [|e l IH]; intros s s' G Q R; cbn [run] in R; [injection R as <-; exists []; rewrite app_nil_r; split; auto; intros m o []|].
  destruct (step verdict n s e) as [s1|] eqn:S; [|discriminate]. destruct (gone_step _ _ _ _ _ G Q S) as (G1 & Q1 & x & X & XL). destruct (IH _ _ G1 Q1 R) as (y & Y & YL).
  exists (x ++ y). rewrite Y, X, app_assoc. split; [reflexivity|]. intros m o I. apply in_app_or in I as [I|I]; eauto.
Qed.

(** It can always come to rest. *)
Lemma rest_or_step verdict n s : 0 < n -> at_rest verdict n s \/ exists e s', own e = true /\ step verdict n s e = Some s'.
Proof.
  intros N.
  assert (GO : forall e, own e = true -> step verdict n s e <> None -> exists e s', own e = true /\ step verdict n s e = Some s').
  { intros e O S. destruct (step verdict n s e) as [s'|] eqn:E; [|congruence]. eauto. }
  destruct (waiting s) as [|m w] eqn:W; [|right; apply (GO (Expire (unit_ m)) eq_refl), can_expire; rewrite W; now left].
  destruct (working s) as [|m k] eqn:K; [|right; apply (GO (Finish (unit_ m)) eq_refl), can_finish; rewrite K; now left].
  destruct (inbox s) as [|m b] eqn:B; [|right; apply (GO (Take (unit_ m)) eq_refl), can_take; auto; rewrite B; now left].
  destruct (io s) as [|u r|] eqn:IO.
  - destruct (down s) as [|i d] eqn:D; [|right; apply (GO (Read false) eq_refl), can_read; congruence].
    destruct (eof s) eqn:E; [right; apply (GO (Read false) eq_refl); cbn [step]; rewrite IO; cbn; unfold read; rewrite D, E; discriminate|].
    destruct (reports s) as [|m p] eqn:R; [|right; apply (GO Serve eq_refl); cbn [step]; rewrite E, R; discriminate].
    left. intros e O. destruct e; try discriminate; cbn [step]; rewrite ?W, ?K, ?B, ?IO, ?E, ?R; cbn; try reflexivity.
    destruct bad; cbn; [reflexivity|]. unfold read. rewrite D, E. reflexivity.
  - right. apply (GO (Unblock false) eq_refl). cbn [step]. rewrite IO. unfold used. rewrite W, K, B. cbn. destruct n; [lia|]. discriminate.
  - destruct (eof s) eqn:E; [left|destruct (reports s) as [|m p] eqn:R; [left|right; apply (GO Serve eq_refl); cbn [step]; rewrite E, R; discriminate]];
      intros e O; destruct e; try discriminate; cbn [step]; rewrite ?W, ?K, ?B, ?IO, ?E, ?R; cbn; reflexivity.
Qed.

Lemma comes_to_rest verdict n s : 0 < n -> exists l s', forallb own l = true /\ run verdict n s l = Some s' /\ at_rest verdict n s'.
Proof.
  intros N. remember (todo s) as k eqn:K. assert (L : todo s <= k) by lia. clear K. revert s L. induction k as [|k IH]; intros s L; (destruct (rest_or_step verdict n s N) as [R|(e & s1 & O & S)]; [exists [], s; auto|]);
    pose proof (todo_step _ _ _ _ _ S) as T; rewrite O in T; destruct e; try discriminate; try lia;
    (destruct (IH s1) as (l & s' & A & B & C); [lia|]; eexists (_ :: l), s'; cbn [forallb run]; rewrite S, A; auto).
Qed.
