(* Proofs for C66. *)

From Coq Require Import List Bool Arith Lia.
From Verif Require Import Dict HandlerModel HandlerSpec.
Import ListNotations.

Section Proofs.
Context {H M S O : Type} `{Dec H}.
Variable handlers : list H.
Hypothesis handlers_nodup : NoDup handlers.
Variable has_pub : S -> bool.
Variable strict reports : bool.
Notation hap := (happening H M S O).
Notation run := (run (M := M) (S := S) (O := O) handlers has_pub strict reports).
Notation step := (step (M := M) (S := S) (O := O) has_pub strict reports).

Lemma received_app (t u : list hap) : received (t ++ u) = received t ++ received u.
Proof. apply flat_map_app. Qed.
Lemma given_app h (t u : list hap) : given h (t ++ u) = given h t ++ given h u.
Proof. apply flat_map_app. Qed.
Lemma yielded_app (t u : list hap) : yielded (t ++ u) = yielded t ++ yielded u.
Proof. apply flat_map_app. Qed.

Lemma finished_snoc h (t : list hap) a :
  finished h (t ++ [a]) <->
  finished h t \/ exists m, a = Ended h m RaisesComplete \/ a = Ended h m RaisesNormalTermination.
Proof.
  unfold finished, finished_at. split.
  - intros [m [Hi|Hi]]; apply in_app_iff in Hi; destruct Hi as [Hi|[Hi|[]]]; eauto.
  - intros [[m [Hi|Hi]]|[m [->| ->]]]; exists m;
      [left|right|left|right]; apply in_app_iff; simpl; auto.
Qed.

(** Happenings that do not end a handler for good. *)
Definition plain (a : hap) : Prop :=
  match a with Ended _ _ RaisesComplete | Ended _ _ RaisesNormalTermination => False | _ => True end.

Lemma finished_plain h t a : plain a -> (finished h (t ++ [a]) <-> finished h t).
Proof.
  intros Hp. rewrite finished_snoc. split; [|auto].
  intros [Hf|[m [->| ->]]]; [exact Hf|destruct Hp|destruct Hp].
Qed.

(** The messages given so far to the handlers not done yet. *)
Definition served (x : state H M S O) (t : list hap) : Prop :=
  match at_ x with
  | Waiting => forall h, In h (callables x) -> given h t = received t
  | Reporting m => exists r, received t = r ++ [m] /\ forall h, In h (callables x) -> given h t = r
  | Between m todo =>
      NoDup todo /\ incl todo (callables x) /\
      exists r, received t = r ++ [m] /\
      forall h, In h (callables x) -> (In h todo -> given h t = r) /\ (~ In h todo -> given h t = r ++ [m])
  | Inside m h0 todo =>
      NoDup todo /\ incl todo (callables x) /\ In h0 (callables x) /\ ~ In h0 todo /\
      exists r, received t = r ++ [m] /\
      forall h, In h (callables x) -> (In h todo -> given h t = r) /\ (~ In h todo -> given h t = r ++ [m])
  | Closed => callables x = []
  | Dead => forall h, In h (callables x) -> given h t = received t \/ exists m, received t = given h t ++ [m]
  end.

Record Inv (x : state H M S O) (t : list hap) : Prop := {
  inv_nodup : NoDup (callables x);
  inv_callables : forall h, In h (callables x) <-> In h handlers /\ ~ finished h t;
  inv_served : served x t;
  inv_finished : forall h m, finished_at h m t ->
                 exists r r', received t = r ++ m :: r' /\ given h t = r ++ [m];
  inv_published : published x = filter (fun p => has_pub (fst p)) (yielded t);
  inv_term : term_ev x = true <-> exists h m, In (Ended h m RaisesNormalTermination) t
}.

Lemma nodup_sdel (h : H) l : NoDup l -> NoDup (sdel h l).
Proof. apply NoDup_sdel. Qed.

Lemma term_snoc (t : list hap) a (b : bool) :
  (b = true <-> exists h m, In (Ended h m RaisesNormalTermination) t) ->
  (forall h m, a <> Ended h m RaisesNormalTermination) ->
  (b = true <-> exists h m, In (Ended h m RaisesNormalTermination) (t ++ [a])).
Proof.
  intros Hb Hn. rewrite Hb. split; intros (h & m & Hi); exists h, m.
  - apply in_app_iff; auto.
  - apply in_app_iff in Hi. destruct Hi as [Hi|[Hi|[]]]; [exact Hi|]. destruct (Hn h m Hi).
Qed.

Lemma finished_grow h m (t : list hap) a :
  (forall h m, finished_at h m t -> exists r r', received t = r ++ m :: r' /\ given h t = r ++ [m]) ->
  (forall h', (exists m', a = Given h' m') -> ~ finished h' t) ->
  finished_at h m t ->
  exists r r', received (t ++ [a]) = r ++ m :: r' /\ given h (t ++ [a]) = r ++ [m].
Proof.
  intros Hf Hg Hh. destruct (Hf h m Hh) as (r & r' & E1 & E2).
  exists r, (r' ++ received [a]). rewrite received_app, E1, <- app_assoc, given_app, E2. split; [reflexivity|].
  destruct a; simpl; try (now rewrite app_nil_r).
  destruct (eqd h h0) eqn:E; [|now rewrite app_nil_r].
  apply (proj1 (eqd_true h h0)) in E. subst h0.
  destruct (Hg h (ex_intro _ m0 eq_refl)). exists m; exact Hh.
Qed.

Lemma given_other (h : H) (t : list hap) a : (forall m, a <> Given h m) -> given h (t ++ [a]) = given h t.
Proof.
  intros Hn. rewrite given_app. unfold given at 2. simpl. destruct a; simpl; try apply app_nil_r.
  destruct (eqd h h0) eqn:E; [|apply app_nil_r].
  apply (proj1 (eqd_true h h0)) in E. subst. destruct (Hn m eq_refl).
Qed.

Lemma given_self (h : H) (t : list hap) m : given h (t ++ [Given h m]) = given h t ++ [m].
Proof. rewrite given_app. unfold given at 2. simpl. rewrite (proj2 (eqd_true h h) eq_refl). reflexivity. Qed.

Lemma received_other (t : list hap) a : (forall m, a <> Received m) -> received (t ++ [a]) = received t.
Proof.
  intros Hn. rewrite received_app. destruct a; simpl; try apply app_nil_r. destruct (Hn m eq_refl).
Qed.

Lemma yielded_other (t : list hap) a : (forall h s o, a <> Yielded h s o) -> yielded (t ++ [a]) = yielded t.
Proof.
  intros Hn. rewrite yielded_app. destruct a; simpl; try apply app_nil_r. destruct (Hn h s o eq_refl).
Qed.

Lemma finished_at_other h m (t : list hap) a : plain a -> finished_at h m (t ++ [a]) -> finished_at h m t.
Proof.
  unfold finished_at. intros Hp [Hi|Hi]; apply in_app_iff in Hi; destruct Hi as [Hi|[Hi|[]]]; auto;
    subst a; destruct Hp.
Qed.

Lemma Inv_init : Inv (init handlers) [].
Proof.
  constructor; cbn [callables at_ term_ev published init].
  - exact handlers_nodup.
  - intros h. split; [intros Hi; split; [exact Hi|intros (m & [[]|[]])]|intros [Hi _]; exact Hi].
  - intros h _. reflexivity.
  - intros h m [[]|[]].
  - reflexivity.
  - split; [discriminate|intros (h & m & [])].
Qed.

Ltac split_step Hs := injection Hs as <- <-.

Lemma Inv_step x t e x' a : Inv x t -> step x e = Some (x', a) -> Inv x' (t ++ [a]).
Proof.
  intros I Hs. pose proof (inv_served x t I) as Hsv. unfold served in Hsv.
  pose proof (inv_nodup x t I) as Hnd. pose proof (inv_callables x t I) as Hcb.
  pose proof (inv_finished x t I) as Hfin. pose proof (inv_published x t I) as Hpub.
  pose proof (inv_term x t I) as Hterm.
  destruct e as [m|ok|h|s o|out| | |]; destruct (at_ x) as [|m0|m0 todo|m0 h0 todo| |] eqn:Ea;
    unfold step in Hs; rewrite Ea in Hs; cbn beta iota in Hs; try discriminate Hs.
  - (* Recv *)
    destruct (callables x) as [|c cs] eqn:Ec; [discriminate|]. split_step Hs.
    constructor; cbn [callables at_ term_ev published].
    + exact Hnd.
    + intros h. rewrite finished_plain by exact Logic.I. apply Hcb.
    + unfold served. destruct reports; cbn [callables at_].
      * exists (received t). rewrite received_app. split; [reflexivity|].
        intros h Hi. rewrite given_other by discriminate. apply Hsv, Hi.
      * split; [exact Hnd|]. split; [apply incl_refl|].
        exists (received t). rewrite received_app. split; [reflexivity|].
        intros h Hi. split; [|intros Hn; destruct (Hn Hi)].
        intros _. rewrite given_other by discriminate. apply Hsv, Hi.
    + intros h m0 Hf. apply finished_grow; [exact Hfin|intros h' (m' & E); discriminate E|].
      now apply finished_at_other in Hf.
    + rewrite yielded_other by discriminate. exact Hpub.
    + apply term_snoc; [exact Hterm|discriminate].
  - (* ReportEnds *)
    split_step Hs. constructor; cbn [callables at_ term_ev published].
    + exact Hnd.
    + intros h. rewrite finished_plain by exact Logic.I. apply Hcb.
    + unfold served; cbn [callables at_]. split; [exact Hnd|]. split; [apply incl_refl|].
      destruct Hsv as (r & E & Hg). exists r. rewrite received_other by discriminate. split; [exact E|].
      intros h Hi. split; [|intros Hn; destruct (Hn Hi)].
      intros _. rewrite given_other by discriminate. apply Hg, Hi.
    + intros h m Hf. apply finished_grow; [exact Hfin|intros h' (m' & E); discriminate E|].
      now apply finished_at_other in Hf.
    + rewrite yielded_other by discriminate. exact Hpub.
    + apply term_snoc; [exact Hterm|discriminate].
  - (* Call *)
    destruct (mem h todo) eqn:Em; [|discriminate]. split_step Hs. apply mem_In in Em.
    destruct Hsv as (Hnt & Hincl & r & E & Hg).
    constructor; cbn [callables at_ term_ev published].
    + exact Hnd.
    + intros h'. rewrite finished_plain by exact Logic.I. apply Hcb.
    + unfold served; cbn [callables at_]. split; [apply nodup_sdel, Hnt|].
      split; [intros y Hy; apply In_sdel in Hy; apply Hincl, Hy|].
      split; [apply Hincl, Em|]. split; [rewrite In_sdel; tauto|].
      exists r. rewrite received_other by discriminate. split; [exact E|].
      intros h' Hi. destruct (Hg h' Hi) as [G1 G2]. rewrite In_sdel. split.
      * intros [Hne Hi']. rewrite given_other by (intros m1 E1; injection E1 as E1 _; congruence).
        apply G1, Hi'.
      * intros Hn. destruct (dec h' h) as [->|Hne].
        -- rewrite given_self, (G1 Em). reflexivity.
        -- rewrite given_other by (intros m1 E1; injection E1 as E1 _; congruence). apply G2. tauto.
    + intros h' m Hf. apply finished_grow; [exact Hfin| |now apply finished_at_other in Hf].
      intros h1 (m1 & E1). injection E1 as E1 _. subst h1. apply Hcb, Hincl, Em.
    + rewrite yielded_other by discriminate. exact Hpub.
    + apply term_snoc; [exact Hterm|discriminate].
  - (* Yield *)
    split_step Hs. constructor; cbn [callables at_ term_ev published].
    + exact Hnd.
    + intros h'. rewrite finished_plain by exact Logic.I. apply Hcb.
    + unfold served; cbn [callables at_].
      destruct Hsv as (A & B & C & D & r & E & Hg).
      do 4 (split; [assumption|]). exists r. rewrite received_other by discriminate. split; [exact E|].
      intros h' Hi. rewrite given_other by discriminate. apply Hg, Hi.
    + intros h' m Hf. apply finished_grow; [exact Hfin|intros h1 (m' & E); discriminate E|].
      now apply finished_at_other in Hf.
    + rewrite yielded_app, filter_app, <- Hpub. unfold publish. simpl.
      destruct (has_pub s); [reflexivity|now rewrite app_nil_r].
    + apply term_snoc; [exact Hterm|discriminate].
  - (* End *)
    destruct Hsv as (Hnt & Hincl & Hc0 & Hn0 & r & E & Hg).
    assert (Hg0 : given h0 t = r ++ [m0]) by (apply Hg; assumption).
    assert (Hbetween : forall (a : hap) (cs : list H), (forall h m, a <> Given h m) -> (forall m, a <> Received m) ->
              incl cs (callables x) -> incl todo cs ->
              served (State cs (Between m0 todo) (term_ev x) (published x)) (t ++ [a])).
    { intros a0 cs Ha Hr Hi1 Hi2. unfold served; cbn [callables at_].
      split; [exact Hnt|]. split; [exact Hi2|]. exists r. rewrite received_other by apply Hr.
      split; [exact E|]. intros h' Hi. rewrite given_other by apply Ha. apply Hg, Hi1, Hi. }
    assert (Htodo : incl todo (sdel h0 (callables x))).
    { intros y Hy. apply In_sdel. split; [intros ->; exact (Hn0 Hy)|apply Hincl, Hy]. }
    assert (Hgrow : forall h m out', finished_at h m t ->
              exists r0 r', received (t ++ [Ended h0 m0 out']) = r0 ++ m :: r' /\
                            given h (t ++ [Ended h0 m0 out']) = r0 ++ [m]).
    { intros h m out' Hf. apply finished_grow; [exact Hfin|intros h' (m' & E'); discriminate E'|exact Hf]. }
    assert (Hnew : forall out', exists r0 r', received (t ++ [Ended h0 m0 out']) = r0 ++ m0 :: r' /\
                            given h0 (t ++ [Ended h0 m0 out']) = r0 ++ [m0]).
    { intros out'. exists r, []. rewrite received_other, given_other by discriminate. auto. }
    assert (Hcb' : forall out', out' = RaisesComplete \/ out' = RaisesNormalTermination ->
              forall h, In h (sdel h0 (callables x)) <-> In h handlers /\ ~ finished h (t ++ [Ended h0 m0 out'])).
    { intros out' Ho h. rewrite In_sdel, Hcb, finished_snoc. split.
      - intros [Hne [Hh Hnf]]. split; [exact Hh|].
        intros [Hf|[m [Em|Em]]]; [exact (Hnf Hf)|injection Em; congruence|injection Em; congruence].
      - intros [Hh Hnf]. split; [|split; [exact Hh|tauto]].
        intros ->. apply Hnf. right. exists m0. destruct Ho as [->| ->]; auto. }
    assert (Hfin' : forall out' h m, finished_at h m (t ++ [Ended h0 m0 out']) ->
              exists r0 r', received (t ++ [Ended h0 m0 out']) = r0 ++ m :: r' /\
                            given h (t ++ [Ended h0 m0 out']) = r0 ++ [m]).
    { intros out' h m [Hi|Hi]; apply in_app_iff in Hi; destruct Hi as [Hi|[Hi|[]]];
        try (apply Hgrow; unfold finished_at; auto; fail);
        injection Hi as -> -> _; apply Hnew. }
    destruct out.
    + split_step Hs. constructor; cbn [callables at_ term_ev published].
      * exact Hnd.
      * intros h. rewrite finished_plain by exact Logic.I. apply Hcb.
      * apply Hbetween; [discriminate|discriminate|apply incl_refl|exact Hincl].
      * apply Hfin'.
      * rewrite yielded_other by discriminate. exact Hpub.
      * apply term_snoc; [exact Hterm|discriminate].
    + split_step Hs. constructor; cbn [callables at_ term_ev published].
      * apply nodup_sdel, Hnd.
      * apply Hcb'; auto.
      * apply Hbetween; [discriminate|discriminate| |exact Htodo]. intros y Hy. now apply In_sdel in Hy.
      * apply Hfin'.
      * rewrite yielded_other by discriminate. exact Hpub.
      * apply term_snoc; [exact Hterm|discriminate].
    + split_step Hs. constructor; cbn [callables at_ term_ev published].
      * apply nodup_sdel, Hnd.
      * apply Hcb'; auto.
      * apply (Hbetween (Ended h0 m0 RaisesNormalTermination)); [discriminate|discriminate| |exact Htodo].
        intros y Hy. now apply In_sdel in Hy.
      * apply Hfin'.
      * rewrite yielded_other by discriminate. exact Hpub.
      * split; [intros _; exists h0, m0; apply in_app_iff; simpl; auto|reflexivity].
    + destruct strict; split_step Hs; constructor; cbn [callables at_ term_ev published];
        try (exact Hnd);
        try (intros h; rewrite finished_plain by exact Logic.I; apply Hcb);
        try (apply Hfin');
        try (rewrite yielded_other by discriminate; exact Hpub);
        try (apply term_snoc; [exact Hterm|discriminate]).
      * unfold served; cbn [callables at_]. intros h Hi. rewrite given_other, received_other by discriminate.
        destruct (Hg h Hi) as [G1 G2]. destruct (mem h todo) eqn:Em.
        -- apply mem_In in Em. right. exists m0. rewrite (G1 Em). exact E.
        -- apply mem_false in Em. left. rewrite (G2 Em). symmetry. exact E.
      * apply Hbetween; [discriminate|discriminate|apply incl_refl|exact Hincl].
  - (* Release *)
    destruct todo as [|? ?]; [|discriminate]. split_step Hs.
    destruct Hsv as (_ & _ & r & E & Hg).
    constructor; cbn [callables at_ term_ev published].
    + exact Hnd.
    + intros h. rewrite finished_plain by exact Logic.I. apply Hcb.
    + unfold served; cbn [callables at_]. intros h Hi.
      rewrite given_other, received_other by discriminate. rewrite E. apply (Hg h Hi). intros [].
    + intros h m Hf. apply finished_grow; [exact Hfin|intros h' (m' & E'); discriminate E'|].
      now apply finished_at_other in Hf.
    + rewrite yielded_other by discriminate. exact Hpub.
    + apply term_snoc; [exact Hterm|discriminate].
  - (* Close *)
    destruct (callables x) as [|? ?] eqn:Ec; [|discriminate]. split_step Hs.
    constructor; cbn [callables at_ term_ev published].
    + constructor.
    + intros h. rewrite finished_plain by exact Logic.I. apply Hcb.
    + reflexivity.
    + intros h m Hf. apply finished_grow; [exact Hfin|intros h' (m' & E'); discriminate E'|].
      now apply finished_at_other in Hf.
    + rewrite yielded_other by discriminate. exact Hpub.
    + apply term_snoc; [exact Hterm|discriminate].
  - (* Cancel while waiting *)
    split_step Hs. constructor; cbn [callables at_ term_ev published]; try exact Hnd.
    + intros h. rewrite finished_plain by exact Logic.I. apply Hcb.
    + unfold served; cbn [callables at_]. intros h Hi. left.
      rewrite given_other, received_other by discriminate. apply Hsv, Hi.
    + intros h m Hf. apply finished_grow; [exact Hfin|intros h' (m' & E'); discriminate E'|].
      now apply finished_at_other in Hf.
    + rewrite yielded_other by discriminate. exact Hpub.
    + apply term_snoc; [exact Hterm|discriminate].
  - split_step Hs. destruct Hsv as (r & E & Hg).
    constructor; cbn [callables at_ term_ev published]; try exact Hnd.
    + intros h. rewrite finished_plain by exact Logic.I. apply Hcb.
    + unfold served; cbn [callables at_]. intros h Hi. right. exists m0.
      rewrite given_other, received_other by discriminate. rewrite (Hg h Hi). exact E.
    + intros h m Hf. apply finished_grow; [exact Hfin|intros h' (m' & E'); discriminate E'|].
      now apply finished_at_other in Hf.
    + rewrite yielded_other by discriminate. exact Hpub.
    + apply term_snoc; [exact Hterm|discriminate].
  - split_step Hs. destruct Hsv as (_ & _ & r & E & Hg).
    constructor; cbn [callables at_ term_ev published]; try exact Hnd.
    + intros h. rewrite finished_plain by exact Logic.I. apply Hcb.
    + unfold served; cbn [callables at_]. intros h Hi. rewrite given_other, received_other by discriminate.
      destruct (Hg h Hi) as [G1 G2]. destruct (mem h todo) eqn:Em.
      * apply mem_In in Em. right. exists m0. rewrite (G1 Em). exact E.
      * apply mem_false in Em. left. rewrite (G2 Em). symmetry. exact E.
    + intros h m Hf. apply finished_grow; [exact Hfin|intros h' (m' & E'); discriminate E'|].
      now apply finished_at_other in Hf.
    + rewrite yielded_other by discriminate. exact Hpub.
    + apply term_snoc; [exact Hterm|discriminate].
  - split_step Hs. destruct Hsv as (_ & _ & _ & _ & r & E & Hg).
    constructor; cbn [callables at_ term_ev published]; try exact Hnd.
    + intros h. rewrite finished_plain by exact Logic.I. apply Hcb.
    + unfold served; cbn [callables at_]. intros h Hi. rewrite given_other, received_other by discriminate.
      destruct (Hg h Hi) as [G1 G2]. destruct (mem h todo) eqn:Em.
      * apply mem_In in Em. right. exists m0. rewrite (G1 Em). exact E.
      * apply mem_false in Em. left. rewrite (G2 Em). symmetry. exact E.
    + intros h m Hf. apply finished_grow; [exact Hfin|intros h' (m' & E'); discriminate E'|].
      now apply finished_at_other in Hf.
    + rewrite yielded_other by discriminate. exact Hpub.
    + apply term_snoc; [exact Hterm|discriminate].
Qed.

Lemma run_Inv x t : run x t -> Inv x t.
Proof. induction 1; [apply Inv_init|eapply Inv_step; eassumption]. Qed.

(** Whether a handler has finished can be decided. *)
Lemma mem_finished h (t : list hap) : finished h t \/ ~ finished h t.
Proof.
  induction t as [|a t IH] using rev_ind.
  - right. intros (m & [[]|[]]).
  - rewrite finished_snoc. destruct IH as [IH|IH]; [auto|].
    destruct a as [m|h' m|h' s o|h' m out|m| |]; try (right; intros [Hf|[m' [E|E]]]; [exact (IH Hf)|discriminate E|discriminate E]).
    destruct (dec h h') as [<-|Hne].
    + destruct out; try (right; intros [Hf|[m' [E|E]]]; [exact (IH Hf)|discriminate E|discriminate E]);
        left; right; eauto.
    + right. intros [Hf|[m' [E|E]]]; [exact (IH Hf)|injection E; congruence|injection E; congruence].
Qed.

(** ** The message being handled *)

Definition is_yield (h : H) (a : hap) : Prop := exists s o, a = Yielded h s o.

Definition all_ended (t1 : list hap) (m : M) (t2 : list hap) : Prop :=
  forall h, In h handlers -> ~ finished h t1 -> exists out, In (Ended h m out) t2.

Definition current (x : state H M S O) (t : list hap) : Prop :=
  match at_ x with
  | Waiting =>
      received t = [] \/
      exists t1 m t2, t = t1 ++ Received m :: t2 ++ [Released m] /\ no_reception t2 /\ all_ended t1 m t2
  | Reporting m =>
      exists t1 t2, t = t1 ++ Received m :: t2 /\ no_reception t2 /\
        forall h, In h handlers -> ~ finished h t1 -> In h (callables x)
  | Between m todo =>
      exists t1 t2, t = t1 ++ Received m :: t2 /\ no_reception t2 /\
        forall h, In h handlers -> ~ finished h t1 -> In h todo \/ exists out, In (Ended h m out) t2
  | Inside m h0 todo =>
      exists t1 t2, t = t1 ++ Received m :: t2 /\ no_reception t2 /\
        (exists ta tb, t2 = ta ++ Given h0 m :: tb /\ Forall (is_yield h0) tb) /\
        forall h, In h handlers -> ~ finished h t1 -> h = h0 \/ In h todo \/ exists out, In (Ended h m out) t2
  | Closed => forall h, In h handlers -> finished h t
  | Dead => True
  end.

Lemma no_reception_snoc (t : list hap) a : (forall m, a <> Received m) -> no_reception t -> no_reception (t ++ [a]).
Proof. unfold no_reception. intros Ha Ht. rewrite received_other by exact Ha. exact Ht. Qed.

Lemma snoc_cons (t1 : list hap) a t2 b : (t1 ++ a :: t2) ++ [b] = t1 ++ a :: t2 ++ [b].
Proof. rewrite <- app_assoc. reflexivity. Qed.

Lemma in_snoc (a b : hap) t : In a t -> In a (t ++ [b]).
Proof. intros. apply in_app_iff; auto. Qed.

Lemma current_step x t e x' a : Inv x t -> current x t -> step x e = Some (x', a) -> current x' (t ++ [a]).
Proof.
  intros I Hc Hs. pose proof (inv_callables x t I) as Hcb. unfold current in Hc.
  destruct e as [m|ok|h|s o|out| | |]; destruct (at_ x) as [|m0|m0 todo|m0 h0 todo| |] eqn:Ea;
    unfold HandlerModel.step in Hs; rewrite Ea in Hs; cbn beta iota in Hs; try discriminate Hs.
  - destruct (callables x) as [|c cs] eqn:Ec; [discriminate|]. split_step Hs.
    unfold current. destruct reports; cbn [callables at_].
    + exists t, []. split; [reflexivity|]. split; [reflexivity|]. intros h Hh Hn. apply Hcb. auto.
    + exists t, []. split; [reflexivity|]. split; [reflexivity|]. intros h Hh Hn. left. apply Hcb. auto.
  - split_step Hs. unfold current; cbn [callables at_]. destruct Hc as (t1 & t2 & -> & Hr & Hh).
    exists t1, (t2 ++ [Nothing]). split; [apply snoc_cons|].
    split; [apply no_reception_snoc; [discriminate|exact Hr]|]. intros h Hi Hn. left. auto.
  - destruct (mem h todo) eqn:Em; [|discriminate]. split_step Hs. apply mem_In in Em.
    unfold current; cbn [callables at_]. destruct Hc as (t1 & t2 & -> & Hr & Hh).
    exists t1, (t2 ++ [Given h m0]). split; [apply snoc_cons|].
    split; [apply no_reception_snoc; [discriminate|exact Hr]|].
    split; [exists t2, []; split; [reflexivity|constructor]|].
    intros h' Hi Hn. destruct (dec h' h) as [->|Hne]; [auto|]. right.
    destruct (Hh h' Hi Hn) as [Ht|[out Ho]]; [left; apply In_sdel; auto|right; exists out; apply in_snoc, Ho].
  - split_step Hs. unfold current; cbn [callables at_].
    destruct Hc as (t1 & t2 & -> & Hr & (ta & tb & -> & Hy) & Hh).
    exists t1, ((ta ++ Given h0 m0 :: tb) ++ [Yielded h0 s o]). split; [apply snoc_cons|].
    split; [apply no_reception_snoc; [discriminate|exact Hr]|].
    split.
    + exists ta, (tb ++ [Yielded h0 s o]). split; [apply snoc_cons|].
      apply Forall_app. split; [exact Hy|]. constructor; [exists s, o; reflexivity|constructor].
    + intros h' Hi Hn. destruct (Hh h' Hi Hn) as [->|[Ht|[out Ho]]]; auto.
      right; right. exists out. apply in_snoc, Ho.
  - destruct Hc as (t1 & t2 & -> & Hr & _ & Hh).
    assert (Hgo : forall cs b p, current (State cs (Between m0 todo) b p) ((t1 ++ Received m0 :: t2) ++ [Ended h0 m0 out])).
    { intros cs b p. unfold current; cbn [callables at_].
      exists t1, (t2 ++ [Ended h0 m0 out]). split; [apply snoc_cons|].
      split; [apply no_reception_snoc; [discriminate|exact Hr]|].
      intros h' Hi Hn. destruct (Hh h' Hi Hn) as [->|[Ht|[out' Ho]]].
      - right. exists out. apply in_app_iff. simpl. auto.
      - auto.
      - right. exists out'. apply in_snoc, Ho. }
    destruct out; try (split_step Hs; apply Hgo).
    destruct strict; split_step Hs; [exact Logic.I|apply Hgo].
  - destruct todo as [|? ?]; [|discriminate]. split_step Hs.
    destruct Hc as (t1 & t2 & -> & Hr & Hh). unfold current; cbn [callables at_]. right.
    exists t1, m0, t2. split; [apply snoc_cons|]. split; [exact Hr|].
    intros h Hi Hn. destruct (Hh h Hi Hn) as [[]|Ho]. exact Ho.
  - destruct (callables x) as [|? ?] eqn:Ec; [|discriminate]. split_step Hs.
    unfold current; cbn [callables at_]. intros h Hi. rewrite finished_plain by exact Logic.I.
    destruct (mem_finished h t) as [Hf|Hf]; [exact Hf|]. destruct (proj2 (Hcb h) (conj Hi Hf)).
  - split_step Hs. exact Logic.I.
  - split_step Hs. exact Logic.I.
  - split_step Hs. exact Logic.I.
  - split_step Hs. exact Logic.I.
Qed.

Lemma run_current x t : run x t -> current x t.
Proof.
  induction 1 as [|x t e x' a Hr IH Hs].
  - left. reflexivity.
  - eapply current_step; [apply run_Inv, Hr|exact IH|exact Hs].
Qed.

Lemma run_split x (t u : list hap) : run x (t ++ u) -> exists x', run x' t.
Proof.
  revert x. induction u as [|a u IH] using rev_ind; intros x Hr.
  - rewrite app_nil_r in Hr. eauto.
  - rewrite app_assoc in Hr. inversion Hr as [E0 E|x0 t0 e x' b Hr' Hs E1 E2].
    + symmetry in E. apply app_eq_nil in E. destruct E as [_ E]. discriminate E.
    + apply app_inj_tail in E2. destruct E2 as [-> _]. eapply IH, Hr'.
Qed.

Lemma run_last x (t : list hap) a : run x (t ++ [a]) -> exists x0 e, run x0 t /\ step x0 e = Some (x, a).
Proof.
  intros Hr. inversion Hr as [E0 E|x0 t0 e x' b Hr' Hs E1 E2].
  - symmetry in E. apply app_eq_nil in E. destruct E as [_ E]. discriminate E.
  - apply app_inj_tail in E2. destruct E2 as [-> ->]. eauto.
Qed.

(** The happening before which it was seen. *)
Lemma run_at x (t u : list hap) a : run x (t ++ a :: u) -> exists x0 e x1, run x0 t /\ step x0 e = Some (x1, a).
Proof.
  intros Hr. replace (t ++ a :: u) with ((t ++ [a]) ++ u) in Hr by (rewrite <- app_assoc; reflexivity).
  destruct (run_split _ _ _ Hr) as [x1 H1]. destruct (run_last _ _ _ H1) as (x0 & e & H2 & H3). eauto.
Qed.

Lemma step_received x e x' m : step x e = Some (x', Received m) -> at_ x = Waiting /\ callables x <> [].
Proof.
  unfold HandlerModel.step. destruct e, (at_ x); try discriminate; try (destruct (callables x) eqn:E; try discriminate);
    try (destruct (mem _ _); discriminate); try (destruct out; try destruct strict; discriminate);
    try (destruct todo; discriminate).
  intros _. split; [reflexivity|discriminate].
Qed.

Lemma step_yielded x e x' h s o : step x e = Some (x', Yielded h s o) -> exists m todo, at_ x = Inside m h todo.
Proof.
  unfold HandlerModel.step. destruct e, (at_ x); try discriminate; try (destruct (callables x) eqn:E; discriminate);
    try (destruct (mem _ _); discriminate); try (destruct out; try destruct strict; discriminate);
    try (destruct todo; discriminate).
  intros E. injection E as _ -> _ _. eauto.
Qed.

Lemma step_subclosed x e x' : step x e = Some (x', SubClosed) -> at_ x' = Closed.
Proof.
  unfold HandlerModel.step. destruct e, (at_ x); try discriminate; try (destruct (callables x) eqn:E; try discriminate);
    try (destruct (mem _ _); discriminate); try (destruct out; try destruct strict; discriminate);
    try (destruct todo; discriminate).
  intros E1. injection E1 as <-. reflexivity.
Qed.

Lemma step_closed x e : at_ x = Closed -> step x e = None.
Proof. intros E. unfold HandlerModel.step. rewrite E. destruct e; reflexivity. Qed.

Lemma last_received (t1 t2 t1' t2' : list hap) m m' :
  t1 ++ Received m :: t2 = t1' ++ Received m' :: t2' -> no_reception t2 -> no_reception t2' ->
  t1 = t1' /\ m = m' /\ t2 = t2'.
Proof.
  revert t1'. induction t1 as [|a t1 IH]; intros [|a' t1'] E H1 H2; simpl in E.
  - injection E as -> ->. auto.
  - injection E as <- ->. unfold no_reception in H1. rewrite received_app in H1. simpl in H1.
    destruct (received t1'); discriminate H1.
  - injection E as -> <-. unfold no_reception in H2. rewrite received_app in H2. simpl in H2.
    destruct (received t1); discriminate H2.
  - injection E as -> E. destruct (IH t1' E H1 H2) as (-> & -> & ->). auto.
Qed.

End Proofs.
