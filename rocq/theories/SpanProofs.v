From Coq Require Import List Arith ZArith Bool Lia.
From Verif Require Import SpanModel SpanSpec.
Import ListNotations.

Lemma skipn_add {A} (a b : nat) (l : list A) : skipn a (skipn b l) = skipn (b + a) l.
Proof.
  revert l; induction b as [|b IH]; intros [|x l]; cbn; auto using skipn_nil.
Qed.

Lemma push_newest n l x : push n (newest n l) x = newest n (l ++ [x]).
Proof.
  unfold push, newest.
  assert (E : skipn (length l - n) l ++ [x] = skipn (length l - n) (l ++ [x])).
  { rewrite skipn_app. replace (length l - n - length l) with 0 by lia. reflexivity. }
  rewrite E, skipn_add. f_equal. rewrite skipn_length, app_length. cbn. lia.
Qed.

(** The parts of the state a sample does not touch. *)
Definition same (s s' : sub) : Prop :=
  total s' = total s /\ counter s' = counter s /\ modn s' = modn s /\ lease_on s' = lease_on s /\
  span_on s' = span_on s /\ act s' = act s /\ smp s' = smp s.

Lemma calls_ok maxlen m ts : (forall t, 0 < w_begin (m_does m t))%Z -> (forall t, w_ctl (m_does m t) = None) ->
  forall s pre, samples s = newest maxlen pre -> smp s = true -> act s = Some (m_seq m) ->
  exists s', calls maxlen s m ts = (s', filter (finishes m) (called m ts), existsb (raises m) ts) /\ same s s' /\
    samples s' = newest maxlen (pre ++ if span_on s then map (span_of m) (called m ts) else []).
Proof.
  intros P U. induction ts as [|t ts IH]; intros s pre E S1 A.
  - exists s. repeat split. cbn. destruct (span_on s); now rewrite app_nil_r.
  - cbn [calls called filter existsb]. rewrite U. unfold begin_profile. rewrite S1. cbn [negb orb].
    rewrite orb_false_r.
    set (s1 := end_profile maxlen s (if negb (span_on s) then 0%Z else w_begin (m_does m t)) t
                 (w_end (m_does m t)) (w_rec (m_does m t))).
    assert (H1 : same s s1 /\ samples s1 = newest maxlen (pre ++ if span_on s then [span_of m t] else [])).
    { subst s1. unfold end_profile. destruct (span_on s) eqn:O; cbn [negb orb].
      - destruct (w_begin (m_does m t) <=? 0)%Z eqn:L; [apply Z.leb_le in L; specialize (P t); lia|].
        rewrite S1. cbn [negb]. split; [repeat split|]. unfold add. cbn [samples].
        rewrite E, push_newest, A. reflexivity.
      - cbn. split; [repeat split|]. now rewrite app_nil_r. }
    destruct H1 as [Sm Es]. clearbody s1. destruct Sm as (T & C & M & L & O & A1 & S2).
    assert (Rs : raises m t = match w_out (m_does m t) with Raises => true | _ => false end) by reflexivity.
    assert (Fs : finishes m t = match w_out (m_does m t) with Finishes => true | _ => false end) by reflexivity.
    destruct (w_out (m_does m t)) eqn:W; rewrite Rs, Fs; cbn [orb].
    + destruct (IH s1 _ Es) as (s' & E' & Sm & Es'); try congruence.
      exists s'. rewrite E'. split; [reflexivity|]. destruct Sm as (? & ? & ? & ? & ? & ? & ?).
      split; [repeat split; congruence|]. rewrite Es', O, <- app_assoc. now destruct (span_on s).
    + destruct (IH s1 _ Es) as (s' & E' & Sm & Es'); try congruence.
      exists s'. rewrite E'. split; [reflexivity|]. destruct Sm as (? & ? & ? & ? & ? & ? & ?).
      split; [repeat split; congruence|]. rewrite Es', O, <- app_assoc. now destruct (span_on s).
    + exists s1. split; [reflexivity|]. split; [repeat split; congruence|]. exact Es.
Qed.

(** Unsampled messages leave no trace. *)
Lemma calls_quiet maxlen m ts : (forall t, w_ctl (m_does m t) = None) ->
  forall s, smp s = false ->
  calls maxlen s m ts = (s, filter (finishes m) (called m ts), existsb (raises m) ts).
Proof.
  intros U. induction ts as [|t ts IH]; intros s S1; [reflexivity|].
  cbn [calls called filter existsb]. rewrite U. unfold begin_profile. rewrite S1, orb_true_r.
  unfold end_profile. cbn [Z.leb]. change (0 <=? 0)%Z with true. cbn iota.
  assert (Rs : raises m t = match w_out (m_does m t) with Raises => true | _ => false end) by reflexivity.
  assert (Fs : finishes m t = match w_out (m_does m t) with Finishes => true | _ => false end) by reflexivity.
  destruct (w_out (m_does m t)) eqn:W; rewrite Rs, Fs; cbn [orb]; rewrite ?IH; auto.
Qed.

Lemma called_all m ts : existsb (raises m) ts = false -> called m ts = ts.
Proof.
  induction ts as [|t ts IH]; cbn; [reflexivity|]. rewrite orb_false_iff. intros [-> H]. now rewrite IH.
Qed.

Lemma called_raises m ts : existsb (raises m) (called m ts) = existsb (raises m) ts.
Proof.
  induction ts as [|t ts IH]; cbn; [reflexivity|]. destruct (raises m t) eqn:E; cbn; [reflexivity|exact IH].
Qed.

Lemma rest_ok m ts : existsb (raises m) ts = false ->
  filter (fun t => negb (existsb (Nat.eqb t) (filter (finishes m) (called m ts)))) ts =
  filter (fun t => negb (finishes m t)) ts.
Proof.
  intros H. rewrite called_all by exact H. apply filter_ext_in. intros t Ht. f_equal.
  destruct (finishes m t) eqn:F.
  - apply existsb_exists. exists t. split; [|apply Nat.eqb_refl]. apply filter_In. auto.
  - destruct (existsb (Nat.eqb t) (filter (finishes m) ts)) eqn:X; [|reflexivity]. apply existsb_exists in X as (u & Hu & E).
    apply Nat.eqb_eq in E. subst u. apply filter_In in Hu. destruct Hu. congruence.
Qed.

Record Live (maxlen : nat) (c : control) (i : nat) (pre : list sample) (s : sub) : Prop := {
  l_mod : modn s = Nat.max 1 (c_mod c);
  l_lease : lease_on s = c_lease c;
  l_span : span_on s = c_span c;
  l_count : c_lease c || c_span c = true -> counter s = i;
  l_samples : samples s = newest maxlen pre
}.

Lemma turn_ok maxlen c i pre s ts m :
  Live maxlen c i pre s -> (forall t, 0 < w_begin (m_does m t))%Z -> (forall t, w_ctl (m_does m t) = None) ->
  exists s', turn maxlen false s ts m = (s', filter (finishes m) (called m ts), existsb (raises m) ts) /\
    total s' = S (total s) /\
    Live maxlen c (S i)
      (pre ++ (if S i mod Nat.max 1 (c_mod c) =? 0 then samples_of c m (called m ts) else [])) s'.
Proof.
  intros [M L O C E] P U. unfold turn, begin_message. rewrite L, O.
  set (k := Nat.max 1 (c_mod c)) in *.
  assert (Km : Nat.max 1 k = k) by (subst k; lia).
  destruct (c_lease c || c_span c) eqn:On.
  - specialize (C eq_refl). rewrite M, Km, C. cbn [lease_on].
    set (s1 := mkSub _ _ _ _ _ _ _ _).
    destruct (S i mod k =? 0) eqn:D.
    + destruct (calls_ok maxlen m ts P U s1 pre E eq_refl eq_refl) as (s' & Ec & Sm & Es).
      rewrite Ec. destruct Sm as (T & Cn & Mn & Ln & On' & An & Sn). cbn in T, Cn, Mn, Ln, On', An, Sn.
      unfold samples_of. rewrite called_raises. cbn [span_on s1] in Es.
      destruct (existsb (raises m) ts) eqn:R.
      * eexists. split; [reflexivity|]. cbn. split; [exact T|]. constructor; cbn; auto; try congruence.
        rewrite Es, andb_false_r, app_nil_r. reflexivity.
      * eexists. split; [reflexivity|]. rewrite andb_true_r. unfold record_lease, lease_ns.
        destruct (c_lease c) eqn:Lc.
        -- rewrite Ln, Sn. cbn [andb end_message add total counter modn lease_on span_on samples]. split; [exact T|].
           constructor; cbn [end_message add total counter modn lease_on span_on samples]; auto; try congruence.
           rewrite Es, push_newest, <- app_assoc. reflexivity.
        -- cbn [end_message total]. split; [exact T|]. constructor; cbn; auto; try congruence.
           rewrite Es, app_nil_r. reflexivity.
    + rewrite (calls_quiet maxlen m ts U s1 eq_refl). rewrite app_nil_r.
      destruct (existsb (raises m) ts) eqn:R; (eexists; split; [reflexivity|]).
      * cbn. split; [reflexivity|]. constructor; cbn; auto.
      * unfold record_lease, lease_ns, s1. cbn [smp lease_on]. rewrite andb_false_r.
        destruct (c_lease c) eqn:Lc; cbn; (split; [reflexivity|]); constructor; cbn; auto.
  - apply orb_false_iff in On as [Lc Oc].
    set (s1 := mkSub _ _ _ _ _ _ _ _).
    rewrite (calls_quiet maxlen m ts U s1 eq_refl).
    assert (X : samples_of c m (called m ts) = []) by (unfold samples_of; rewrite Lc, Oc; reflexivity).
    rewrite X.
    replace (if S i mod k =? 0 then [] else []) with (@nil sample) by now destruct (S i mod k =? 0).
    rewrite app_nil_r.
    destruct (existsb (raises m) ts) eqn:R; (eexists; split; [reflexivity|]).
    * cbn. split; [reflexivity|]. constructor; cbn; auto. rewrite Lc, Oc. discriminate.
    * unfold s1. cbn [lease_on]. unfold lease_ns. rewrite Lc. cbn.
      split; [reflexivity|]. constructor; cbn; auto. rewrite Lc, Oc. discriminate.
Qed.

Lemma serve_ok maxlen c ms : clock_ok ms -> undisturbed ms -> forall i pre s ts,
  Live maxlen c i pre s ->
  samples (serve maxlen false s ts ms) =
    newest maxlen (pre ++ every (Nat.max 1 (c_mod c)) i (samples_of c) (handled ts ms)) /\
  total (serve maxlen false s ts ms) = total s + length (handled ts ms).
Proof.
  intros P U. induction ms as [|m ms IH]; intros i pre s ts Lv.
  - destruct ts; cbn; rewrite app_nil_r; split; try apply Lv; lia.
  - destruct ts as [|t ts].
    { cbn. rewrite app_nil_r. split; [apply Lv|lia]. }
    destruct (turn_ok maxlen c i pre s (t :: ts) m Lv) as (s' & E & T & Lv').
    { intros u. apply P. now left. } { intros u. apply U. now left. }
    cbn [serve handled every]. rewrite E.
    destruct (existsb (raises m) (t :: ts)) eqn:R.
    + cbn [every length]. rewrite app_nil_r. split; [apply Lv'|lia].
    + rewrite rest_ok by exact R.
      destruct (IH (fun m' u H => P m' u (or_intror H)) (fun m' u H => U m' u (or_intror H)) _ _ _
                  (filter (fun t => negb (finishes m t)) (t :: ts)) Lv') as [A B].
      split; [rewrite A; now rewrite <- app_assoc|]. rewrite B. cbn [length]. lia.
Qed.

(** Leaky subscribers. *)
Definition leases_of (c : control) (m : msg) (_ : list nat) : list sample := if c_lease c then [lease_of m] else [].

Lemma turn_leaky maxlen c i pre s ts m :
  Live maxlen c i pre s -> (forall t, w_ctl (m_does m t) = None) ->
  exists s', turn maxlen true s ts m = (s', filter (finishes m) (called m ts), existsb (raises m) ts) /\
    total s' = S (total s) /\
    Live maxlen c (S i)
      (pre ++ (if S i mod Nat.max 1 (c_mod c) =? 0 then leases_of c m (called m ts) else [])) s'.
Proof.
  intros [M L O C E] U. unfold turn, begin_message. rewrite L, O.
  set (k := Nat.max 1 (c_mod c)) in *.
  assert (Km : Nat.max 1 k = k) by (subst k; lia).
  assert (Q : forall s1, calls maxlen (end_message s1) m ts = (end_message s1, filter (finishes m) (called m ts), existsb (raises m) ts))
    by (intros s1; now apply calls_quiet).
  destruct (c_lease c || c_span c) eqn:On; rewrite Q; (eexists; split; [reflexivity|]).
  - specialize (C eq_refl). rewrite M, Km, C. cbn [lease_on].
    unfold leases_of, record_lease, lease_ns. cbn [lease_on smp].
    destruct (c_lease c) eqn:Lc; destruct (S i mod k =? 0) eqn:D; cbn [andb];
      cbn [end_message add total counter modn lease_on span_on samples]; (split; [reflexivity|]);
      constructor; cbn [end_message add total counter modn lease_on span_on samples]; auto;
      try (rewrite E, push_newest; reflexivity); rewrite app_nil_r; exact E.
  - apply orb_false_iff in On as [Lc Oc]. cbn [lease_on]. unfold leases_of, record_lease, lease_ns. rewrite Lc.
    cbn [end_message total]. split; [reflexivity|].
    constructor; cbn [end_message total counter modn lease_on span_on samples]; auto.
    + rewrite Lc, Oc. discriminate.
    + destruct (S i mod k =? 0); rewrite app_nil_r; exact E.
Qed.

Lemma serve_leaky maxlen c ms : undisturbed ms -> forall i pre s ts,
  Live maxlen c i pre s ->
  samples (serve maxlen true s ts ms) =
    newest maxlen (pre ++ every (Nat.max 1 (c_mod c)) i (leases_of c) (handled ts ms)) /\
  total (serve maxlen true s ts ms) = total s + length (handled ts ms).
Proof.
  intros U. induction ms as [|m ms IH]; intros i pre s ts Lv.
  - destruct ts; cbn; rewrite app_nil_r; split; try apply Lv; lia.
  - destruct ts as [|t ts].
    { cbn. rewrite app_nil_r. split; [apply Lv|lia]. }
    destruct (turn_leaky maxlen c i pre s (t :: ts) m Lv) as (s' & E & T & Lv').
    { intros u. apply U. now left. }
    cbn [serve handled every]. rewrite E.
    destruct (existsb (raises m) (t :: ts)) eqn:R.
    + cbn [every length]. rewrite app_nil_r. split; [apply Lv'|lia].
    + rewrite rest_ok by exact R.
      destruct (IH (fun m' u H => U m' u (or_intror H)) _ _ _
                  (filter (fun t => negb (finishes m t)) (t :: ts)) Lv') as [A B].
      split; [rewrite A; now rewrite <- app_assoc|]. rewrite B. cbn [length]. lia.
Qed.

Lemma live_apply maxlen c s : Live maxlen c 0 [] (apply c s).
Proof. constructor; reflexivity. Qed.

Lemma every_In k f l : forall i x, In x (every k i f l) -> exists m ts, In (m, ts) l /\ In x (f m ts).
Proof.
  induction l as [|[m ts] l IH]; intros i x H; cbn in H; [contradiction|].
  apply in_app_or in H as [H|H].
  - destruct (S i mod k =? 0); [|contradiction]. exists m, ts. split; [now left|exact H].
  - destruct (IH _ _ H) as (m' & ts' & A & B). exists m', ts'. split; [now right|exact B].
Qed.

Lemma skipn_In {A} n (l : list A) x : In x (skipn n l) -> In x l.
Proof. revert l; induction n as [|n IH]; intros [|y l]; cbn; auto. Qed.
