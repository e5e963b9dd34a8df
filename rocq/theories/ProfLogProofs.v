From Coq Require Import List Arith Bool Lia.
From Verif Require Import ProfLogModel ProfLogSpec.
Import ListNotations.

Ltac conj := repeat match goal with |- _ /\ _ => split end; auto.

Lemma nth_set_same {A} (l : list A) i x y : nth_error l i = Some y -> nth_error (set_nth i x l) i = Some x.
Proof. revert i. induction l as [|z l IH]; intros [|i]; cbn; try discriminate; auto. Qed.
Lemma nth_set_other {A} (l : list A) i j x : i <> j -> nth_error (set_nth i x l) j = nth_error l j.
Proof. revert i j. induction l as [|z l IH]; intros [|i] [|j] N; cbn; auto; congruence. Qed.
Lemma len_set {A} (l : list A) i x : length (set_nth i x l) = length l.
Proof. revert i. induction l as [|z l IH]; intros [|i]; cbn; auto. Qed.
Lemma in_set {A} (l : list A) i x y : In y (set_nth i x l) -> y = x \/ In y l.
Proof. revert i. induction l as [|z l IH]; intros [|i]; cbn; auto. - intros [H|H]; auto. - intros [H|H]; auto. destruct (IH i H); auto. Qed.
Lemma nth_set_d {A} (l : list A) i x d : i < length l -> nth i (set_nth i x l) d = x.
Proof. revert i. induction l as [|z l IH]; intros [|i]; cbn; intros H; try lia; auto. apply IH. lia. Qed.
Lemma nth_set_od {A} (l : list A) i j x d : i <> j -> nth j (set_nth i x l) d = nth j l d.
Proof. revert i j. induction l as [|z l IH]; intros [|i] [|j] N; cbn; auto; congruence. Qed.

Lemma run_app s l1 l2 : run s (l1 ++ l2) = match run s l1 with Some s' => run s' l2 | None => None end.
Proof. revert s. induction l1 as [|e l1 IH]; intros s; cbn; [reflexivity|]. destruct (step s e); auto. Qed.
Lemma run_snoc s l e s' : run s (l ++ [e]) = Some s' -> exists s1, run s l = Some s1 /\ step s1 e = Some s'.
Proof. rewrite run_app. destruct (run s l) as [s1|]; [|discriminate]. cbn. intros H. exists s1. split; [reflexivity|]. destruct (step s1 e); [exact H|discriminate]. Qed.

Lemma samples_app a b : samples (a ++ b) = samples a ++ samples b.
Proof. apply flat_map_app. Qed.
Lemma logged_app a b : logged (a ++ b) = logged a ++ logged b.
Proof. apply flat_map_app. Qed.
Lemma fits_app v c x : c <> [] -> fits v c -> fits v (c ++ x).
Proof. intros N [->|(r & ->)]; [congruence|]. right. exists (r ++ x). reflexivity. Qed.

(** One version. *)
Definition calm (v : nat) (c : list line) (x : proc) : Prop :=
  ver x = v /\
  match at_ x with
  | Checking | Reading | Opening true => True
  | Unlinking | Crashed => False
  | Opening false => c <> []
  | Heading h f => f = 0 /\ (h = false -> c <> [])
  | Running f => f = 0 /\ (dbg x = true -> c <> [])
  end.
Definition early (v : nat) (x : proc) : Prop := ver x = v /\ (at_ x = Checking \/ at_ x = Opening true).

Definition inv (v : nat) (old : option (list line)) (l : list event) (s : st) : Prop :=
  (path s = None /\ old = None /\ files s = [] /\ logged l = [] /\ (forall x, In x (procs s) -> early v x)) \/
  (exists c, path s = Some 0 /\ files s = [c] /\ fits v c /\ samples c = samples (old_lines old) ++ logged l /\
     (forall x, In x (procs s) -> calm v c x) /\ (c = [] -> headers c = 0)).

Lemma calm_more v c c' x : calm v c x -> (c <> [] -> c' <> []) -> calm v c' x.
Proof. intros (V & H) I. split; [exact V|]. destruct (at_ x) as [| | |[]|h f|f|]; auto; destruct H as (F & G); auto. Qed.

Lemma inv_init v old : old_fits v old -> inv v old [] (init old).
Proof.
  intros F. destruct old as [c|]; [right|left].
  - exists c. cbn. rewrite app_nil_r. conj. + intros x []. + intros ->; reflexivity.
  - cbn. conj. intros x [].
Qed.

Lemma inv_step v old l s e s' : inv v old l s -> (forall w d, e = Launch w d -> w = v) -> step s e = Some s' -> inv v old (l ++ [e]) s'.
Proof.
  intros IV L S. destruct e as [w d|p|p k]; cbn [step] in S.
  - injection S as <-. rewrite (L w d eq_refl). destruct IV as [(P & O & F & G & E)|(c & P & F & FT & SA & C & Z)]; [left|right; exists c]; cbn [path files procs]; rewrite logged_app; cbn; rewrite app_nil_r; conj.
    + intros x H. apply in_app_or in H as [H|[<-|[]]]; [apply E; auto|split; cbn; auto].
    + intros x H. apply in_app_or in H as [H|[<-|[]]]; [apply C; auto|split; cbn; auto].
  - destruct (nth_error (procs s) p) as [x|] eqn:PX; [|discriminate]. assert (IX : In x (procs s)) by (eapply nth_error_In; eauto). unfold go in S.
    destruct IV as [(P & O & F & G & E)|(c & P & F & FT & SA & C & Z)].
    + destruct (E x IX) as (V & [A|A]); rewrite A in S; rewrite P in S; injection S as <-.
      * left. cbn [goto path files procs]. rewrite logged_app. cbn. rewrite app_nil_r. conj. intros y H. destruct (in_set _ _ _ _ H) as [->|H']; [split; cbn; auto|apply E; auto].
      * right. exists []. cbn [goto path files procs]. rewrite F. cbn. rewrite logged_app, O, G. cbn. conj. { left; reflexivity. }
        intros y H. destruct (in_set _ _ _ _ H) as [->|H']; [split; cbn; auto; split; auto; discriminate|]. destruct (E y H') as (VY & [AY|AY]); split; auto; rewrite AY; auto.
    + destruct (C x IX) as (V & Q).
      assert (KEEP : forall g, (match g with Checking | Reading | Opening true => True | Unlinking | Crashed => False | Opening false => c <> [] | Heading h f => f = 0 /\ (h = false -> c <> []) | Running f => f = 0 /\ (dbg x = true -> c <> []) end) ->
        inv v old (l ++ [Go p]) (goto s p x g)).
      { intros g H. right. exists c. cbn [goto path files procs]. rewrite logged_app. cbn. rewrite app_nil_r. conj. intros y HY. destruct (in_set _ _ _ _ HY) as [->|HY']; [split; cbn; auto|auto]. }
      destruct (at_ x) as [| | |h|h f|f|] eqn:A; rewrite ?P in S; try discriminate; try contradiction.
      * injection S as <-. apply KEEP. exact Logic.I.
      * injection S as <-. apply KEEP. unfold file. rewrite F. cbn. destruct FT as [->|(r & ->)]; cbn; [exact Logic.I|]. rewrite V, Nat.eqb_refl. discriminate.
      * injection S as <-. apply KEEP. split; auto. destruct h; [discriminate|auto].
      * injection S as <-. destruct Q as (-> & Q). destruct (h && dbg x) eqn:HD; [|apply KEEP; split; auto; intros D; rewrite D, andb_true_r in HD; auto].
        apply andb_true_iff in HD as (-> & D). right. exists (c ++ [Head (ver x)]). cbn [append goto path files procs]. unfold file. rewrite F. cbn. rewrite logged_app, samples_app, SA. cbn. rewrite !app_nil_r.
        conj.
        -- destruct FT as [->|(r & ->)]; right; [exists []; rewrite V; reflexivity|exists (r ++ [Head (ver x)]); reflexivity].
        -- intros y HY. destruct (in_set _ _ _ _ HY) as [->|HY']; [split; cbn; auto; split; auto; intros _ E; destruct c; discriminate|]. eapply calm_more; [apply C, HY'|]. intros _ E; destruct c; discriminate.
        -- intros E; destruct c; discriminate.
  - destruct (nth_error (procs s) p) as [x|] eqn:PX; [|discriminate]. assert (IX : In x (procs s)) by (eapply nth_error_In; eauto).
    destruct (at_ x) as [| | | | |f|] eqn:A; try discriminate. destruct (dbg x) eqn:D; [|discriminate]. injection S as <-.
    destruct IV as [(P & O & F & G & E)|(c & P & F & FT & SA & C & Z)]; [destruct (E x IX) as (V & [A'|A']); congruence|].
    destruct (C x IX) as (V & Q). rewrite A in Q. destruct Q as (-> & Q). specialize (Q D). right. exists (c ++ [Sample p k]). cbn [append path files procs]. unfold file. rewrite F. cbn. rewrite logged_app, samples_app, SA. cbn. rewrite <- app_assoc.
    conj.
    + apply fits_app; auto.
    + intros y HY. eapply calm_more; [apply C, HY|]. intros _ E; destruct c; discriminate.
    + intros E; destruct c; discriminate.
Qed.

Lemma inv_run v old l : forall s, old_fits v old -> all_of_version v l -> run (init old) l = Some s -> inv v old l s.
Proof.
  induction l as [|e l IH] using rev_ind; intros s O V R; [injection R as <-; apply inv_init; exact O|].
  apply run_snoc in R as (s1 & R1 & S). eapply inv_step; eauto.
  - apply IH; auto. intros w d I. apply (V w d), in_or_app. auto.
  - intros w d ->. apply (V w d), in_or_app. right. now left.
Qed.

(** One process at a time. *)
Definition starts (c : list line) : Prop := exists w r, c = Head w :: r.
Definition last_ok (s : st) (x : proc) : Prop :=
  match at_ x with
  | Checking | Running _ => True
  | Reading | Unlinking => path s <> None
  | Opening true => on_disk s = []
  | Opening false => path s <> None /\ starts (on_disk s)
  | Heading true f => path s = Some f /\ on_disk s = []
  | Heading false f => path s = Some f /\ starts (on_disk s)
  | Crashed => False
  end.

Definition inv2 (s : st) : Prop :=
  (forall p x, nth_error (procs s) p = Some x -> S p < length (procs s) -> exists f, at_ x = Running f) /\
  (forall f, path s = Some f -> f < length (files s)) /\
  (forall x f, In x (procs s) -> at_ x = Running f -> dbg x = true -> f < length (files s) /\ (path s = Some f -> starts (file s f))) /\
  (forall p x, nth_error (procs s) p = Some x -> last_ok s x) /\
  headers (on_disk s) <= 1.

Lemma headers_app a b : headers (a ++ b) = headers a + headers b.
Proof. unfold headers. now rewrite filter_app, app_length. Qed.
Lemma starts_app c x : starts c -> starts (c ++ x).
Proof. intros (w & r & ->). exists w, (r ++ x). reflexivity. Qed.

Lemma last_ok_same s s2 x : path s2 = path s -> on_disk s2 = on_disk s -> last_ok s x -> last_ok s2 x.
Proof. intros P O. unfold last_ok. rewrite P, O. auto. Qed.

Lemma inv2_goto s s2 p x g : inv2 s -> nth_error (procs s) p = Some x -> (forall f, at_ x <> Running f) -> procs s2 = procs s ->
  (forall f, path s2 = Some f -> f < length (files s2)) ->
  (forall y f, In y (procs s) -> at_ y = Running f -> dbg y = true -> f < length (files s2) /\ (path s2 = Some f -> starts (file s2 f))) ->
  (forall f, g = Running f -> dbg x = true -> f < length (files s2) /\ (path s2 = Some f -> starts (file s2 f))) ->
  last_ok s2 (mkProc (ver x) (dbg x) g) -> headers (on_disk s2) <= 1 -> inv2 (goto s2 p x g).
Proof.
  intros (A & _ & _ & _ & _) PX NR PS PB RU RX LO H.
  assert (LP : ~ S p < length (procs s)) by (intros L; destruct (A p x PX L) as (f & E); apply (NR f E)).
  assert (LE : p < length (procs s)) by (apply nth_error_Some; congruence).
  unfold inv2. cbn [goto path files procs]. rewrite PS, len_set. conj.
  - intros q y QY L. rewrite nth_set_other in QY by lia. eauto.
  - intros y f IY RY DY. destruct (in_set _ _ _ _ IY) as [->|IY']; [exact (RX f RY DY)|exact (RU y f IY' RY DY)].
  - intros q y QY. apply (last_ok_same s2); auto. destruct (Nat.eq_dec q p) as [->|NE].
    + rewrite (nth_set_same _ _ _ x PX) in QY. injection QY as <-. exact LO.
    + rewrite nth_set_other in QY by auto. assert (q < length (procs s)) by (apply nth_error_Some; congruence). destruct (A q y QY) as (f & E); [lia|]. unfold last_ok. rewrite E. exact Logic.I.
Qed.

Lemma inv2_step s e s' : inv2 s -> (forall v d, e = Launch v d -> forall x, In x (procs s) -> exists f, at_ x = Running f) -> step s e = Some s' -> inv2 s'.
Proof.
  intros IV L S. pose proof IV as (A & PB & RU & LO & H). destruct e as [v d|p|p k]; cbn [step] in S.
  - injection S as <-. specialize (L v d eq_refl). unfold inv2. cbn [path files procs]. conj.
    + intros q y QY LT. rewrite app_length in LT. cbn in LT. rewrite nth_error_app1 in QY by lia. apply L. eapply nth_error_In; eauto.
    + intros y f IY RY DY. apply in_app_or in IY as [IY|[<-|[]]]; [eauto|discriminate].
    + intros q y QY. apply nth_error_In in QY. apply in_app_or in QY as [QY|[<-|[]]]; [|exact Logic.I]. destruct (L y QY) as (f & E). unfold last_ok. rewrite E. exact Logic.I.
  - destruct (nth_error (procs s) p) as [x|] eqn:PX; [|discriminate]. pose proof (LO p x PX) as LX. unfold go in S. unfold last_ok in LX.
    assert (SAME : forall g, (forall f, at_ x <> Running f) -> (forall f, g <> Running f) -> last_ok s (mkProc (ver x) (dbg x) g) -> inv2 (goto s p x g)).
    { intros g NR NG LG. apply inv2_goto with (s := s); auto. intros f E. destruct (NG f E). }
    destruct (at_ x) as [| | |h|h f|f|] eqn:AX; try discriminate.
    + injection S as <-. apply SAME; try congruence; destruct (path s) eqn:P; try discriminate; unfold last_ok; cbn; [congruence|]. unfold on_disk. rewrite P. reflexivity.
    + injection S as <-. destruct (path s) as [f|] eqn:P; [|congruence]. assert (OD : on_disk s = file s f) by (unfold on_disk; rewrite P; reflexivity).
      apply SAME; try congruence; unfold first_line; destruct (file s f) as [|[w|? ?|] r] eqn:F; try (destruct (w =? ver x)); try discriminate; unfold last_ok; cbn; rewrite ?P; try congruence.
      split; [discriminate|]. rewrite OD. exists w, r. reflexivity.
    + destruct (path s) as [f|] eqn:P; [|congruence]. injection S as <-. apply inv2_goto with (s := s); auto; cbn [path files procs]; try congruence; try discriminate; unfold last_ok, on_disk, headers; cbn; auto.
      intros y g IY RY DY. destruct (RU y g IY RY DY) as (B & _). split; [exact B|discriminate].
    + destruct (path s) as [f|] eqn:P; injection S as <-.
      * apply SAME; try congruence. unfold last_ok. cbn. destruct h; auto. destruct LX. auto.
      * apply inv2_goto with (s := s); auto; cbn [path files procs]; try congruence; try discriminate; unfold last_ok, on_disk, headers; cbn [at_ path files].
        -- intros f [= <-]. rewrite app_length. cbn. lia.
        -- intros y g IY RY DY. destruct (RU y g IY RY DY) as (B & _). split; [rewrite app_length; lia|]. intros [= <-]. lia.
        -- rewrite app_nth2, Nat.sub_diag by lia. destruct h; [cbn; auto|]. destruct LX; congruence.
        -- rewrite app_nth2, Nat.sub_diag by lia. cbn. lia.
    + injection S as <-. assert (PF : path s = Some f) by (destruct h; apply LX). pose proof (PB f PF) as LF. assert (OD : on_disk s = file s f) by (unfold on_disk; rewrite PF; reflexivity).
      destruct (h && dbg x) eqn:HD.
      * apply andb_true_iff in HD as (-> & D). destruct LX as (_ & EM). rewrite OD in EM.
        assert (FS : file (append s f (Head (ver x))) f = [Head (ver x)]) by (unfold file, append; cbn [files]; rewrite nth_set_d by auto; fold (file s f); rewrite EM; reflexivity).
        apply inv2_goto with (s := s); auto; cbn [append path files procs]; try congruence.
        -- intros g E. rewrite len_set. auto.
        -- intros y g IY RY DY. destruct (RU y g IY RY DY) as (B & C). rewrite len_set. split; [exact B|]. intros E. assert (g = f) by congruence. subst g. specialize (C E). destruct C as (w & r & C). congruence.
        -- intros g [= <-] _. rewrite len_set. split; [exact LF|]. intros _. fold (append s f (Head (ver x))). rewrite FS. exists (ver x), []. reflexivity.
        -- exact Logic.I.
        -- unfold on_disk. cbn [append path]. rewrite PF. change (nth f _ []) with (file (append s f (Head (ver x))) f). rewrite FS. cbn. lia.
      * apply inv2_goto with (s := s); auto; try congruence; [|exact Logic.I]. intros g [= <-] D. split; [exact LF|]. intros _. rewrite D, andb_true_r in HD. subst h. rewrite <- OD. apply LX.
  - destruct (nth_error (procs s) p) as [x|] eqn:PX; [|discriminate]. assert (IX : In x (procs s)) by (eapply nth_error_In; eauto). destruct (at_ x) as [| | | | |f|] eqn:AX; try discriminate. destruct (dbg x) eqn:D; [|discriminate]. injection S as <-.
    destruct (RU x f IX AX D) as (LF & ST).
    assert (FS : file (append s f (Sample p k)) f = file s f ++ [Sample p k]) by (unfold file at 1, append; cbn [files]; rewrite nth_set_d by auto; reflexivity).
    assert (FO : forall g, g <> f -> file (append s f (Sample p k)) g = file s g) by (intros g NE; unfold file at 1, append; cbn [files]; rewrite nth_set_od by auto; reflexivity).
    assert (OD : path s = Some f /\ on_disk s = file s f /\ on_disk (append s f (Sample p k)) = file s f ++ [Sample p k] \/ path s <> Some f /\ on_disk (append s f (Sample p k)) = on_disk s).
    { unfold on_disk. cbn [append path files]. destruct (path s) as [g|] eqn:P; [destruct (Nat.eq_dec g f) as [->|NE]|]; [left|right|right].
      - split; [reflexivity|]. split; [reflexivity|]. apply nth_set_d. exact LF.
      - split; [congruence|]. apply nth_set_od. auto.
      - split; [congruence|reflexivity]. }
    unfold inv2. cbn [append procs path]. fold (append s f (Sample p k)). conj.
    + intros g E. cbn [append files]. rewrite len_set. auto.
    + intros y g IY RY DY. destruct (RU y g IY RY DY) as (B & C). cbn [append files]. rewrite len_set. split; [exact B|]. intros E. specialize (C E). destruct (Nat.eq_dec g f) as [->|NE]; [rewrite FS; apply starts_app, C|rewrite FO; auto].
    + intros q y QY. specialize (LO q y QY). destruct OD as [(P & O1 & O2)|(P & O1)]; [|apply (last_ok_same s); auto].
      specialize (ST P). unfold last_ok in *. cbn [append path]. destruct (at_ y) as [| | |[]|[] g|g|]; auto; try (exfalso; destruct ST as (w & r & ST); try (destruct LO as (_ & LO)); congruence).
      * destruct LO as (L1 & L2). split; [exact L1|]. rewrite O2. apply starts_app, ST.
      * destruct LO as (L1 & L2). split; [exact L1|]. rewrite O2. apply starts_app, ST.
    + destruct OD as [(P & O1 & O2)|(P & O1)]; [|rewrite O1; exact H]. rewrite O2, headers_app. cbn. rewrite O1 in H. lia.
Qed.

Lemma inv2_run old l : forall s, headers (old_lines old) <= 1 -> one_at_a_time old l -> run (init old) l = Some s -> inv2 s.
Proof.
  induction l as [|e l IH] using rev_ind; intros s HO OT R.
  - injection R as <-. unfold inv2. destruct old as [c|]; cbn; conj; try (intros f [= <-]; lia); try (intros; contradiction); try (intros [|q] y H; discriminate H); intros; discriminate.
  - apply run_snoc in R as (s1 & R1 & S). assert (IV : inv2 s1). { apply IH; auto. intros l1 v d l2 s2 E R2. apply (OT l1 v d (l2 ++ [e]) s2); auto. rewrite E, <- app_assoc. reflexivity. }
    eapply inv2_step; eauto. intros v d ->. exact (OT l v d [] s1 eq_refl R1).
Qed.
