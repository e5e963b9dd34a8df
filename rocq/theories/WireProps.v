(** C73: each message of an input goes to the tasks subscribed to it; each other task runs once;
    what is published goes to the publisher of the stream. *)
From Coq Require Import String List Bool Arith Ascii Lia.
From Verif Require Import Dict ClassModel ClassSpec ClassProofs WireModel.
Import ListNotations.
Open Scope string_scope.

(* ---- specification ---- *)

(** A text without a character. *)
Fixpoint without (c : ascii) (t : string) : Prop :=
  match t with EmptyString => True | String d r => d <> c /\ without c r end.

Section Spec.
Variable w : world.
Variable fns : nat -> fn.
Variable sts : nat -> stream.

(** The task [f] is subscribed to the stream named [n] (the one the class has under the name). *)
Definition subscribed (n : string) (f : nat) : bool :=
  match fn_subs (fns f) with
  | Some s => match get s (w_streams w) with Some m => eqd m n | None => false end
  | None => false
  end.

(** The units of a process: instances of classes, with addresses of their own; names are
    identifiers. *)
Definition units_ok (units : list unit_) : Prop :=
  NoDup (map u_addr units) /\
  forall u, In u units -> (exists k, class_of w k = Some (u_class u)) /\
    (forall n s, In (n, s) (k_streams (u_class u)) -> without "/" n) /\
    (forall n f, In (n, f) (k_tasks (u_class u)) -> without ":" (fn_name (fns f))).

(** Tasks without subscription have names of their own: [__name__], in each unit. *)
Definition names_differ (units : list unit_) : Prop :=
  forall u n1 f1 n2 f2, In u units -> In (n1, f1) (k_tasks (u_class u)) -> In (n2, f2) (k_tasks (u_class u)) ->
    fn_subs (fns f1) = None -> fn_subs (fns f2) = None -> fn_name (fns f1) = fn_name (fns f2) -> f1 = f2.
End Spec.

(* ---- lemmas ---- *)

Lemma app_assoc_s a b c : (a ++ b) ++ c = a ++ (b ++ c).
Proof. induction a as [|x a IH]; cbn; [reflexivity|now rewrite IH]. Qed.

Lemma split_last c a b a' b' : without c b -> without c b' -> a ++ String c b = a' ++ String c b' -> a = a' /\ b = b'.
Proof.
  intros W W'. revert a'. induction a as [|x a IH]; intros [|y a']; cbn; intros E.
  - injection E as ->. auto.
  - injection E as <- ->. exfalso. clear - W. induction a' as [|z a' IH]; cbn in W; [destruct W; congruence|apply IH; apply W].
  - injection E as -> <-. exfalso. clear - W'. induction a as [|z a IH]; cbn in W'; [destruct W'; congruence|apply IH; apply W'].
  - injection E as -> E. destruct (IH a' E) as [-> ->]. auto.
Qed.

Definition puts {V} (l : list (string * V)) (d : list (string * V)) := fold_left (fun d e => put (fst e) (snd e) d) l d.

Lemma puts_app {V} (a b d : list (string * V)) : puts (a ++ b)%list d = puts b (puts a d).
Proof. apply fold_left_app. Qed.

Lemma puts_cons {V} k (v : V) l d : puts ((k, v) :: l) d = puts l (put k v d).
Proof. reflexivity. Qed.

Lemma get_puts_absent {V} (l : list (string * V)) : forall d k, (forall v, ~ In (k, v) l) -> get k (puts l d) = get k d.
Proof.
  induction l as [|[m x] l IH]; intros d k H; [reflexivity|]. rewrite puts_cons, IH by (intros v I; apply (H v); now right).
  apply get_put_neq. intros ->. apply (H x). now left.
Qed.

Lemma get_puts {V} (l : list (string * V)) : forall d k v, In (k, v) l -> (forall v', In (k, v') l -> v' = v) ->
  get k (puts l d) = Some v.
Proof.
  induction l as [|[m x] l IH]; intros d k v I U; [destruct I|]. rewrite puts_cons.
  destruct (in_dec string_dec k (map fst l)) as [J|J].
  - apply in_map_iff in J as [[k' v'] [E J]]. cbn in E. subst k'. pose proof (U v' (or_intror J)). subst v'.
    apply IH; [assumption|]. intros v' J'. apply U. now right.
  - destruct I as [[= -> ->]|I]; [|exfalso; apply J; apply in_map_iff; now exists (k, v)].
    rewrite get_puts_absent; [apply get_put_eq|]. intros v' J'. apply J. apply in_map_iff. now exists (k, v').
Qed.

Lemma In_puts {V} (l : list (string * V)) : forall d e, In e (puts l d) -> In e d \/ In e l.
Proof.
  induction l as [|[m x] l IH]; intros d e I; [now left|]. rewrite puts_cons in I. apply IH in I as [I|I]; [|right; now right].
  assert (H : forall d, In e (put m x d) -> In e d \/ (m, x) = e).
  { clear. induction d as [|[k y] d IH]; cbn; [intros [I|[]]; now right|].
    destruct (dec m k); cbn; [intros [I|I]; [now right|left; now right]|].
    intros [I|I]; [left; now left|]. destruct (IH I); [left; now right|now right]. }
  apply H in I as [I|I]; [now left|right; now left].
Qed.

Section Proofs.
Variable w : world.
Variable fns : nat -> fn.
Variable sts : nat -> stream.
Hypothesis R : reachable w.

Definition task_entries (u : unit_) (tasks : list (string * nat)) : list (string * coro) :=
  flat_map (fun t => match fn_subs (fns (snd t)) with
                     | None => [(task_key fns u (snd t), RunTask (u_addr u) (snd t))]
                     | Some _ => []
                     end) tasks.

Definition at_ (u : unit_) (n : string) : string := u_addr u ++ "/" ++ n.

Definition handlers_of (u : unit_) (tasks : list (string * nat)) (n : string) : list (string * nat) :=
  map (fun t => (u_addr u, snd t)) (filter (fun t => subscribed w fns n (snd t)) tasks).

Definition sub_entries (u : unit_) (streams : list (string * nat)) : list (string * coro) :=
  flat_map (fun e => match sts (snd e) with
                     | InS l q => [("SUBSCRIBER|" ++ at_ u (fst e),
                                    Handle (at_ u (fst e)) l q (handlers_of u (k_tasks (u_class u)) (fst e)) (eqd (fst e) "INPUT_SETTINGS"))]
                     | OutS _ => []
                     end) streams.

Definition pub_entries (u : unit_) (streams : list (string * nat)) : list (string * nat) :=
  flat_map (fun e => match sts (snd e) with InS _ _ => [] | OutS o => [(at_ u (fst e), o)] end) streams.

Lemma stream_named u n s : (exists k, class_of w k = Some (u_class u)) -> In (n, s) (k_streams (u_class u)) ->
  get s (w_streams w) = Some n.
Proof. intros [k K] I. exact (proj1 (named_steps w (reachable_steps _ R)) k _ n s K I). Qed.

Lemma at_inj u n m : at_ u n = at_ u m -> n = m.
Proof.
  unfold at_. generalize (u_addr u) as a. induction a as [|x a IH]; cbn; [congruence|]. intros E. injection E as E. auto.
Qed.

Lemma wire_tasks_spec u : (exists k, class_of w k = Some (u_class u)) -> forall tasks coros subs coros' subs',
  wire_tasks w fns u tasks coros subs = Some (coros', subs') ->
  coros' = puts (task_entries u tasks) coros /\
  forall n, getd (at_ u n) [] subs' = (getd (at_ u n) [] subs ++ handlers_of u tasks n)%list.
Proof.
  intros K. induction tasks as [|[m f] tasks IH]; cbn [wire_tasks]; intros coros subs coros' subs' E.
  - injection E as <- <-. split; [reflexivity|]. intros n. cbn. now rewrite app_nil_r.
  - unfold task_entries, handlers_of. cbn [flat_map filter snd]. unfold subscribed at 1.
    destruct (fn_subs (fns f)) as [s|] eqn:FS.
    + destruct (get s (w_streams w)) as [n0|] eqn:G; [|discriminate].
      destruct (get n0 (k_streams (u_class u))) as [s'|] eqn:G2; [|discriminate].
      unfold stream_addr in E. rewrite (stream_named u n0 s' K (get_In _ _ _ G2)) in E. cbn [option_map] in E.
      apply IH in E as [-> E]. split; [reflexivity|]. intros n. rewrite E. fold (at_ u n0). unfold getd at 1. rewrite get_put.
      unfold eqd. destruct (dec n0 n) as [->|NE].
      * destruct (dec (at_ u n) (at_ u n)); [|congruence]. cbn [map]. rewrite <- app_assoc. reflexivity.
      * destruct (dec (at_ u n) (at_ u n0)) as [H|_]; [apply at_inj in H; congruence|]. reflexivity.
    + apply IH in E as [-> E]. split; [reflexivity|assumption].
Qed.

Lemma wire_streams_spec u subs : (exists k, class_of w k = Some (u_class u)) ->
  (forall n, getd (at_ u n) [] subs = handlers_of u (k_tasks (u_class u)) n) ->
  forall streams coros pubs coros' pubs', (forall e, In e streams -> In e (k_streams (u_class u))) ->
  wire_streams w sts u streams subs coros pubs = Some (coros', pubs') ->
  coros' = puts (sub_entries u streams) coros /\ pubs' = puts (pub_entries u streams) pubs.
Proof.
  intros K HS. induction streams as [|[n s] streams IH]; cbn [wire_streams]; intros coros pubs coros' pubs' I E.
  - injection E as <- <-. split; reflexivity.
  - unfold stream_addr in E. rewrite (stream_named u n s K (I _ (or_introl eq_refl))) in E. cbn [option_map] in E.
    unfold sub_entries, pub_entries. cbn [flat_map fst snd]. fold (at_ u n) in E.
    destruct (sts s) as [l q|o].
    + apply IH in E as [-> ->]; [|intros; apply I; now right]. rewrite HS. split; reflexivity.
    + apply IH in E as [-> ->]; [|intros; apply I; now right]. split; reflexivity.
Qed.

Definition coro_entries (u : unit_) : list (string * coro) :=
  (task_entries u (k_tasks (u_class u)) ++ sub_entries u (k_streams (u_class u)))%list.

Lemma wire_spec units : (forall u, In u units -> exists k, class_of w k = Some (u_class u)) ->
  forall coros pubs coros' pubs', wire w fns sts units coros pubs = Some (coros', pubs') ->
  coros' = puts (flat_map coro_entries units) coros /\
  pubs' = puts (flat_map (fun u => pub_entries u (k_streams (u_class u))) units) pubs.
Proof.
  induction units as [|u units IH]; cbn [wire flat_map]; intros K coros pubs coros' pubs' E; [injection E as <- <-; split; reflexivity|].
  destruct (wire_tasks w fns u (k_tasks (u_class u)) coros []) as [[c1 subs]|] eqn:T; [|discriminate].
  pose proof (K u (or_introl eq_refl)) as Ku.
  destruct (wire_tasks_spec u Ku _ _ _ _ _ T) as [-> HS].
  destruct (wire_streams w sts u (k_streams (u_class u)) subs _ pubs) as [[c2 p2]|] eqn:S; [|discriminate].
  apply wire_streams_spec in S as [-> ->]; [|assumption|exact HS|auto].
  apply IH in E as [-> ->]; [|intros; apply K; now right]. rewrite !puts_app. unfold coro_entries. rewrite puts_app. split; reflexivity.
Qed.

Lemma NoDup_addr (units : list unit_) u v : NoDup (map u_addr units) -> In u units -> In v units -> u_addr u = u_addr v -> u = v.
Proof.
  induction units as [|x l IH]; cbn; intros D Iu Iv E; [destruct Iu|]. inversion D as [|? ? N D']; subst.
  destruct Iu as [->|Iu], Iv as [->|Iv]; auto.
  - exfalso. apply N. rewrite E. now apply in_map.
  - exfalso. apply N. rewrite <- E. now apply in_map.
Qed.

Lemma in_coro_entries u e : In e (coro_entries u) <->
  (exists n f, In (n, f) (k_tasks (u_class u)) /\ fn_subs (fns f) = None /\ e = (task_key fns u f, RunTask (u_addr u) f)) \/
  (exists n s l q, In (n, s) (k_streams (u_class u)) /\ sts s = InS l q /\
     e = ("SUBSCRIBER|" ++ at_ u n, Handle (at_ u n) l q (handlers_of u (k_tasks (u_class u)) n) (eqd n "INPUT_SETTINGS"))).
Proof.
  unfold coro_entries. rewrite in_app_iff. unfold task_entries, sub_entries. rewrite !in_flat_map. split.
  - intros [[[n f] [I J]]|[[n s] [I J]]]; cbn [fst snd] in J.
    + destruct (fn_subs (fns f)) eqn:FS; [destruct J|]. destruct J as [<-|[]]. left. eauto.
    + destruct (sts s) as [l q|o] eqn:SS; [|destruct J]. destruct J as [<-|[]]. right. exists n, s, l, q. auto.
  - intros [[n [f [I [FS ->]]]]|[n [s [l [q [I [SS ->]]]]]]].
    + left. exists (n, f). split; [assumption|]. cbn [snd]. rewrite FS. now left.
    + right. exists (n, s). split; [assumption|]. cbn [fst snd]. rewrite SS. now left.
Qed.

Lemma append_inj a b c : a ++ b = a ++ c -> b = c.
Proof. induction a as [|x a IH]; cbn; [auto|]. intros E. injection E as E. auto. Qed.

Lemma NoDup_streams u : (exists k, class_of w k = Some (u_class u)) -> NoDup (keys (k_streams (u_class u))).
Proof. intros [k K]. eapply registry_NoDup. exact (co_streams _ _ _ (inv_reachable _ R _ _ K)). Qed.

Lemma inherit_key reg n : (forall b c, class_of w b = Some c -> NoDup (keys (reg c))) ->
  forall bases d, (get n d <> None \/ exists b, In b bases /\ base_entry w reg n b <> None) -> get n (inherit_from w reg bases d) <> None.
Proof.
  intros ND. unfold inherit_from. induction bases as [|b l IH]; intros d H.
  - destruct H as [H|[b [[] _]]]. exact H.
  - cbn [fold_left]. apply IH. destruct H as [H|[b' [[<-|I] E]]].
    + left. destruct (class_of w b) as [c|] eqn:C; [|assumption]. rewrite get_fold_put by eauto. destruct (get n (reg c)); congruence.
    + left. unfold base_entry in E. destruct (class_of w b) as [c|] eqn:C; [|congruence]. rewrite get_fold_put by eauto.
      destruct (get n (reg c)); congruence.
    + right. eauto.
Qed.

Lemma stream_kept k : forall c, class_of w k = Some c -> forall a ca m, ancestor w a k -> class_of w a = Some ca ->
  get m (k_streams ca) <> None -> get m (k_streams c) <> None.
Proof.
  pose proof (inv_reachable _ R) as IV.
  assert (ND : forall b cb, class_of w b = Some cb -> NoDup (keys (k_streams cb))).
  { intros b cb Cb. eapply registry_NoDup. exact (co_streams _ _ _ (IV _ _ Cb)). }
  induction k as [k IH] using (well_founded_induction lt_wf). intros c C a ca m A Ca G.
  destruct (mro_self w k c IV C) as [r [E [_ [M _]]]]. unfold ancestor in A. rewrite E in A. destruct A as [<-|A]; [congruence|].
  destruct (M a A) as [b [Ib Xb]]. destruct (co_bases _ _ _ (IV _ _ C) b Ib) as [L [cb [Cb LE]]].
  pose proof (IH b L cb Cb a ca m Xb Ca G) as Gb.
  rewrite (co_streams _ _ _ (IV _ _ C)).
  assert (K : is_component (k_meta c) = true).
  { rewrite (co_streams _ _ _ (IV _ _ Cb)) in Gb. destruct (k_meta cb), (k_meta c); cbn in *; try reflexivity; try contradiction; congruence. }
  rewrite K. rewrite get_declare by (apply NoDup_with_annotations; apply (co_fields _ _ _ (IV _ _ C))).
  assert (H : get m (inherit_from w k_streams (k_bases c) []) <> None).
  { apply inherit_key; [exact ND|]. right. exists b. split; [assumption|]. unfold base_entry. now rewrite Cb. }
  destruct (get m (with_annotations (k_stmt c))) as [v|]; [|assumption]. destruct (pick_stream v); [discriminate|assumption].
Qed.

(** Every task is subscribed to a stream that its class, or an ancestor of its class, declares. *)
Definition streams_declared (units : list unit_) : Prop :=
  forall u n f s, In u units -> In (n, f) (k_tasks (u_class u)) -> fn_subs (fns f) = Some s ->
    exists k a m v, class_of w k = Some (u_class u) /\ ancestor w a k /\ meta_is w is_component a /\
      m <> "SETTINGS" /\ m <> "STATE" /\ binds w a m v /\ stream_in v = Some s.

(** Then wiring does not fail. *)
Theorem C73_wires units : (forall u, In u units -> exists k, class_of w k = Some (u_class u)) ->
  streams_declared units -> exists coros pubs, wire w fns sts units [] [] = Some (coros, pubs).
Proof.
  generalize (@nil (string * coro)) as c0, (@nil (string * nat)) as p0.
  induction units as [|u l IH]; intros c0 p0 K D; [cbn; eauto|]. cbn [wire].
  pose proof (K u (or_introl eq_refl)) as Ku.
  assert (T : exists c1 s1, wire_tasks w fns u (k_tasks (u_class u)) c0 [] = Some (c1, s1)).
  { assert (D' : forall n f s, In (n, f) (k_tasks (u_class u)) -> fn_subs (fns f) = Some s ->
      exists m s' , get s (w_streams w) = Some m /\ get m (k_streams (u_class u)) = Some s').
    { intros n f s I S. destruct (D u n f s (or_introl eq_refl) I S) as [k [a [m [v [C [A [[ca [Ca Ka]] [N1 [N2 [[ca' [Ca' B]] P]]]]]]]]]].
      assert (ca' = ca) as -> by congruence.
      assert (G : get m (k_streams ca) = Some s).
      { apply (registered_own w is_component stream_in k_streams m a ca v s); try assumption.
        - now apply inv_reachable.
        - intros k' c' C'. apply (co_streams _ _ _ (inv_reachable _ R _ _ C')). }
      pose proof (proj1 (named_steps w (reachable_steps _ R)) a ca m s Ca (get_In _ _ _ G)) as NM.
      destruct (get m (k_streams (u_class u))) as [s'|] eqn:G'; [eauto|].
      exfalso. apply (stream_kept k _ C a ca m A Ca); [congruence|assumption]. }
    generalize (@nil (string * list (string * nat))) as s0. revert c0 D'. generalize (k_tasks (u_class u)) as ts.
    induction ts as [|[n f] ts IHt]; intros c0 D' s0; [cbn; eauto|]. cbn [wire_tasks].
    destruct (fn_subs (fns f)) as [s|] eqn:S.
    - destruct (D' n f s (or_introl eq_refl) S) as [m [s' [G1 G2]]]. rewrite G1, G2. unfold stream_addr.
      rewrite (stream_named u m s' Ku (get_In _ _ _ G2)). cbn [option_map]. apply IHt. intros; eapply D'; [right|]; eassumption.
    - apply IHt. intros; eapply D'; [right|]; eassumption. }
  destruct T as [c1 [s1 ->]].
  assert (S : exists c2 p2, wire_streams w sts u (k_streams (u_class u)) s1 c1 p0 = Some (c2, p2)).
  { assert (I : forall e, In e (k_streams (u_class u)) -> In e (k_streams (u_class u))) by auto. revert I.
    generalize (k_streams (u_class u)) at 1 3 as ss. clear - Ku R.
    intros ss. revert c1 p0. induction ss as [|[n s] ss IHs]; intros c1 p0 I; [cbn; eauto|]. cbn [wire_streams].
    unfold stream_addr. rewrite (stream_named u n s Ku (I _ (or_introl eq_refl))). cbn [option_map].
    destruct (sts s); apply IHs; intros; apply I; now right. }
  destruct S as [c2 [p2 ->]]. apply IH; [intros; apply K; now right|]. intros u' n f s I. apply D. now right.
Qed.

Variables (units : list unit_) (coros : list (string * coro)) (pubs : list (string * nat)).
Hypothesis OK : units_ok w fns units.
Hypothesis W : wire w fns sts units [] [] = Some (coros, pubs).

Lemma class_known u : In u units -> exists k, class_of w k = Some (u_class u).
Proof. intros I. apply (proj2 OK u I). Qed.

Lemma same_stream u1 n1 s1 u2 n2 s2 : In u1 units -> In u2 units -> In (n1, s1) (k_streams (u_class u1)) ->
  In (n2, s2) (k_streams (u_class u2)) -> at_ u1 n1 = at_ u2 n2 -> u1 = u2 /\ n1 = n2 /\ s1 = s2.
Proof.
  intros I1 I2 J1 J2 E. unfold at_ in E.
  destruct (split_last "/" _ _ _ _ (proj1 (proj2 (proj2 OK u1 I1)) n1 s1 J1) (proj1 (proj2 (proj2 OK u2 I2)) n2 s2 J2) E) as [EA EN].
  assert (u1 = u2) as <- by (apply (NoDup_addr units); [apply OK|assumption..]). split; [reflexivity|]. split; [assumption|].
  subst n2. pose proof (NoDup_streams u1 (class_known u1 I1)) as D.
  pose proof (In_get _ _ _ D J1). pose proof (In_get _ _ _ D J2). congruence.
Qed.

(** A subscriber is made for each input stream, with the stream's options; it hands each message to
    exactly the tasks subscribed to the stream, and reports settings if it is INPUT_SETTINGS. *)
Theorem C73_handlers u n s l q : In u units -> In (n, s) (k_streams (u_class u)) -> sts s = InS l q ->
  get ("SUBSCRIBER|" ++ u_addr u ++ "/" ++ n) coros =
    Some (Handle (u_addr u ++ "/" ++ n) l q
            (map (fun t => (u_addr u, snd t)) (filter (fun t => subscribed w fns n (snd t)) (k_tasks (u_class u))))
            (eqd n "INPUT_SETTINGS")).
Proof.
  intros I J S. destruct (wire_spec units class_known _ _ _ _ W) as [-> _]. apply get_puts.
  - apply in_flat_map. exists u. split; [assumption|]. apply in_coro_entries. right. exists n, s, l, q. auto.
  - intros v Iv. apply in_flat_map in Iv as [u' [I' Iv]]. apply in_coro_entries in Iv as [[n' [f [_ [_ E]]]]|[n' [s' [l' [q' [J' [S' E]]]]]]].
    + unfold task_key in E. cbn in E. discriminate.
    + assert (EA : at_ u n = at_ u' n') by (apply (append_inj "SUBSCRIBER|"); unfold at_ in *; congruence).
      destruct (same_stream u n s u' n' s' I I' J J' EA) as [<- [<- <-]]. rewrite S in S'. injection S' as <- <-. unfold at_, handlers_of in E. congruence.
Qed.

(** A task without subscription is run, once, if no two of them in a unit have the same name. *)
Theorem C73_tasks u n f : names_differ fns units -> In u units -> In (n, f) (k_tasks (u_class u)) -> fn_subs (fns f) = None ->
  get ("TASK|" ++ u_addr u ++ ":" ++ fn_name (fns f)) coros = Some (RunTask (u_addr u) f).
Proof.
  intros ND I J S. destruct (wire_spec units class_known _ _ _ _ W) as [-> _]. apply get_puts.
  - apply in_flat_map. exists u. split; [assumption|]. apply in_coro_entries. left. exists n, f. auto.
  - intros v Iv. apply in_flat_map in Iv as [u' [I' Iv]]. apply in_coro_entries in Iv as [[n' [f' [J' [S' E]]]]|[n' [s' [l' [q' [J' [S' E]]]]]]].
    + unfold task_key in E. assert (EK : u_addr u ++ ":" ++ fn_name (fns f) = u_addr u' ++ ":" ++ fn_name (fns f'))
        by (apply (append_inj "TASK|"); congruence).
      destruct (split_last ":" _ _ _ _ (proj2 (proj2 (proj2 OK u I)) n f J) (proj2 (proj2 (proj2 OK u' I')) n' f' J') EK) as [EA EN].
      assert (u = u') as <- by (apply (NoDup_addr units); [apply OK|assumption..]).
      assert (f = f') as <- by (eapply (ND u n f n' f'); eassumption). congruence.
    + unfold task_key in E. cbn in E. discriminate.
Qed.

(** Nothing else is run. *)
Theorem C73_nothing_else key co : In (key, co) coros ->
  (exists u n f, In u units /\ In (n, f) (k_tasks (u_class u)) /\ fn_subs (fns f) = None /\ co = RunTask (u_addr u) f) \/
  (exists u n s l q, In u units /\ In (n, s) (k_streams (u_class u)) /\ sts s = InS l q /\
     exists hs r, co = Handle (u_addr u ++ "/" ++ n) l q hs r).
Proof.
  intros I. rewrite (proj1 (wire_spec units class_known _ _ _ _ W)) in I. apply In_puts in I as [[]|I].
  apply in_flat_map in I as [u [Iu I]]. apply in_coro_entries in I as [[n [f [J [S E]]]]|[n [s [l [q [J [S E]]]]]]].
  - left. exists u, n, f. injection E as _ ->. auto.
  - right. exists u, n, s, l, q. split; [assumption|]. split; [assumption|]. split; [assumption|].
    exists (handlers_of u (k_tasks (u_class u)) n), (eqd n "INPUT_SETTINGS"). unfold at_ in E. congruence.
Qed.

(** What a task yields for an output stream of its unit, or of another unit of the process, is
    broadcast by the publisher with that stream's address and options. *)
Theorem C73_publishes u n s o : In u units -> In (n, s) (k_streams (u_class u)) -> sts s = OutS o ->
  publish w u s pubs = Some (Some (u_addr u ++ "/" ++ n, o)).
Proof.
  intros I J S. unfold publish, stream_addr. rewrite (stream_named u n s (class_known u I) J). cbn [option_map].
  rewrite (proj2 (wire_spec units class_known _ _ _ _ W)).
  rewrite (get_puts _ [] (u_addr u ++ "/" ++ n) o); [reflexivity| |].
  - apply in_flat_map. exists u. split; [assumption|]. apply in_flat_map. exists (n, s). split; [assumption|]. cbn [snd fst]. rewrite S. now left.
  - intros v Iv. apply in_flat_map in Iv as [u' [I' Iv]]. apply in_flat_map in Iv as [[n' s'] [J' Iv]]. cbn [fst snd] in Iv.
    destruct (sts s') as [|o'] eqn:S'; [destruct Iv|]. destruct Iv as [E|[]].
    assert (EA : at_ u n = at_ u' n') by (unfold at_ in *; congruence).
    destruct (same_stream u n s u' n' s' I I' J J' EA) as [<- [<- <-]]. congruence.
Qed.

Theorem C73_no_other_publisher a o : In (a, o) pubs ->
  exists u n s, In u units /\ In (n, s) (k_streams (u_class u)) /\ sts s = OutS o /\ a = u_addr u ++ "/" ++ n.
Proof.
  intros I. rewrite (proj2 (wire_spec units class_known _ _ _ _ W)) in I. apply In_puts in I as [[]|I].
  apply in_flat_map in I as [u [Iu I]]. apply in_flat_map in I as [[n s] [J I]]. cbn [fst snd] in I.
  destruct (sts s) as [|o'] eqn:S; [destruct I|]. destruct I as [E|[]]. exists u, n, s. unfold at_ in E.
  assert (o' = o) by congruence. subst. split; [assumption|]. split; [assumption|]. split; [assumption|congruence].
Qed.
End Proofs.

(* ---- examples and findings ---- *)

(** C73 finding, @timeit: whatever the function is, the task so decorated does not return what the function
    returns; each call raises. *)
Theorem C73_timeit_breaks_the_task_refuted : forall (A V : Type) fns u f (func : A -> outcome V) args res,
  func args = Returned _ res -> timeit fns u f func args = RaisedTypeError V \/ timeit fns u f func args = RaisedKeyError V.
Proof. intros A V fns u f func args res E. unfold timeit. rewrite E. destruct (get _ _); auto. Qed.

(** A unit class (2) with an input, an output, two tasks subscribed to the input and a task that is
    not; a subclass (3) with another stream in the place of the input. *)
Definition demo : list stmt :=
  [Stmt MUnit [0] [] None None;
   Stmt MUnit [1] [("INPUT", VStream 10); ("OUTPUT", VStream 11); ("f", VFun 20 (Deco true false false));
                   ("g", VFun 21 (Deco true false false)); ("h", VFun 22 (Deco true false false))] None None;
   Stmt MUnit [2] [("INPUT", VStream 12)] None None].

Definition demo_world : world := fold_left (fun w s => fst (define w s)) demo start_world.
Definition demo_fns (f : nat) : fn :=
  match f with 20 => Fn "f" (Some 10) | 21 => Fn "g" (Some 10) | 22 => Fn "h" None | _ => Fn "k" None end.
Definition demo_sts (s : nat) : stream :=
  match s with 10 => InS false None | 11 => OutS 7 | 12 => InS true (Some 5) | _ => InS false None end.
Definition demo_class (k : nat) : class := nth k (w_classes demo_world) (Class (Stmt MPlain [] [] None None) [] [] None None [] None [] []).
Definition demo_units : list unit_ := [Unit_ "S/A" (demo_class 2); Unit_ "S/B" (demo_class 3)].

Lemma demo_reachable : reachable demo_world.
Proof.
  assert (P : forall w s, NoDup (keys (st_fields s)) -> st_meta s = MUnit ->
    (exists b c, st_bases s = [b] /\ class_of w b = Some c /\ meta_le (k_meta c) MUnit /\ is_component (k_meta c) = true) -> proper w s).
  { intros w s D M [b [c [B [C [LE K]]]]]. split; [split; [assumption|split]|].
    - rewrite B. repeat constructor; intros [].
    - rewrite B, M. intros b' [<-|[]]. eauto.
    - intros _. exists b, c. rewrite B. split; [now left|auto]. }
  unfold demo_world, demo. cbn [fold_left].
  apply reach_define; [apply reach_define; [apply reach_define; [apply reach_start|]|]|]; (apply P; [|reflexivity|]).
  - constructor.
  - eexists 0, _. split; [reflexivity|]. split; [reflexivity|]. split; [exact I|reflexivity].
  - cbn. repeat constructor; cbn; intuition discriminate.
  - eexists 1, _. split; [reflexivity|]. split; [reflexivity|]. split; [exact I|reflexivity].
  - cbn. repeat constructor; cbn; intuition discriminate.
  - eexists 2, _. split; [reflexivity|]. split; [reflexivity|]. split; [exact I|reflexivity].
Qed.

Example C73_case :
  reachable demo_world /\ units_ok demo_world demo_fns demo_units /\ names_differ demo_fns demo_units /\
  streams_declared demo_world demo_fns demo_units /\
  wire demo_world demo_fns demo_sts demo_units [] [] =
    Some ([("TASK|S/A:h", RunTask "S/A" 22);
           ("SUBSCRIBER|S/A/INPUT", Handle "S/A/INPUT" false None [("S/A", 20); ("S/A", 21)] false);
           ("TASK|S/B:h", RunTask "S/B" 22);
           ("SUBSCRIBER|S/B/INPUT", Handle "S/B/INPUT" true (Some 5) [("S/B", 20); ("S/B", 21)] false)],
          [("S/A/OUTPUT", 7); ("S/B/OUTPUT", 7)]).
Proof.
  assert (T2 : k_tasks (demo_class 2) = [("f", 20); ("g", 21); ("h", 22)]) by reflexivity.
  assert (T3 : k_tasks (demo_class 3) = [("f", 20); ("g", 21); ("h", 22)]) by reflexivity.
  split; [exact demo_reachable|]. split; [|split; [|split]].
  - split; [cbn; repeat constructor; cbn; intuition discriminate|].
    intros u [<-|[<-|[]]]; (split; [|split]).
    + exists 2. reflexivity.
    + intros n s I. vm_compute in I. destruct I as [I|[I|[]]]; injection I as <- <-; cbn; intuition discriminate.
    + intros n f I. cbn [u_class] in I. rewrite T2 in I. destruct I as [I|[I|[I|[]]]]; injection I as <- <-; cbn; intuition discriminate.
    + exists 3. reflexivity.
    + intros n s I. vm_compute in I. destruct I as [I|[I|[]]]; injection I as <- <-; cbn; intuition discriminate.
    + intros n f I. cbn [u_class] in I. rewrite T3 in I. destruct I as [I|[I|[I|[]]]]; injection I as <- <-; cbn; intuition discriminate.
  - intros u n1 f1 n2 f2 Iu I1 I2 S1 S2 _.
    assert (H : forall n f, In (n, f) (k_tasks (u_class u)) -> fn_subs (demo_fns f) = None -> f = 22).
    { intros n f I S. destruct Iu as [<-|[<-|[]]]; cbn [u_class] in I; [rewrite T2 in I|rewrite T3 in I];
        destruct I as [I|[I|[I|[]]]]; injection I as <- <-; cbn in S; congruence. }
    rewrite (H n1 f1 I1 S1), (H n2 f2 I2 S2). reflexivity.
  - intros u n f s Iu I S.
    assert (H : s = 10).
    { destruct Iu as [<-|[<-|[]]]; cbn [u_class] in I; [rewrite T2 in I|rewrite T3 in I];
        destruct I as [I|[I|[I|[]]]]; injection I as <- <-; cbn in S; congruence. }
    subst s. destruct Iu as [<-|[<-|[]]]; [exists 2|exists 3]; exists 2, "INPUT", (VStream 10);
      (split; [reflexivity|]); (split; [vm_compute; tauto|]); (split; [eexists; split; reflexivity|]);
      (split; [discriminate|]); (split; [discriminate|]); (split; [eexists; split; reflexivity|reflexivity]).
  - vm_compute. reflexivity.
Qed.

Definition same_name_fns (f : nat) : fn := Fn "inner" None.

(** C73 finding: of two tasks without subscription whose functions have the same [__name__] (made by
    a decorator or by a factory, or one function under two names) only the last is run. *)
Theorem C73_same_name_runs_one_refuted :
  exists coros pubs, wire demo_world same_name_fns demo_sts [Unit_ "S/A" (demo_class 2)] [] [] = Some (coros, pubs) /\
    k_tasks (demo_class 2) = [("f", 20); ("g", 21); ("h", 22)] /\
    filter (fun e => match snd e with RunTask _ _ => true | _ => false end) coros = [("TASK|S/A:inner", RunTask "S/A" 22)].
Proof. eexists _, _. split; [vm_compute; reflexivity|]. split; vm_compute; reflexivity. Qed.

(** C73 finding: what is yielded for a stream that is not an output of a unit of the process is
    dropped, without any error. *)
Theorem C73_yield_elsewhere_is_dropped_refuted :
  exists coros pubs, wire demo_world demo_fns demo_sts [Unit_ "S/A" (demo_class 2)] [] [] = Some (coros, pubs) /\
    publish demo_world (Unit_ "S/A" (demo_class 2)) 10 pubs = Some None /\
    publish demo_world (Unit_ "S/B" (demo_class 3)) 11 pubs = Some None.
Proof. eexists _, _. split; [vm_compute; reflexivity|]. split; vm_compute; reflexivity. Qed.

Print Assumptions C73_handlers.
Print Assumptions C73_tasks.
Print Assumptions C73_nothing_else.
Print Assumptions C73_publishes.
Print Assumptions C73_no_other_publisher.
Print Assumptions C73_wires.
Print Assumptions C73_timeit_breaks_the_task_refuted.
Print Assumptions C73_same_name_runs_one_refuted.
Print Assumptions C73_yield_elsewhere_is_dropped_refuted.
