(* C59: the life cycle of SyncContext. *)

From Coq Require Import List Bool Arith Lia.
From Verif Require Import LifecycleModel LifecycleProps.
Import ListNotations.

(** ** Specification *)

(** Leaving the graph context does not raise. *)
Definition exits_well (c : sync_call) : Prop := c <> SShutdown false /\ c <> SSpinEnd false.

(** spin is going on. *)
Fixpoint in_spin (h : list (sync_call * sync_result)) : bool :=
  match h with
  | [] => false
  | (SSpin, Ok) :: _ => true
  | (SSpinEnd _, _) :: _ => false
  | _ :: h => in_spin h
  end.

(** The last call has ended the life of the context: a shutdown outside spin, or the end of spin. *)
Definition ends (h : list (sync_call * sync_result)) : bool :=
  match h with
  | (SShutdown _, _) :: h => negb (in_spin h)
  | (SSpinEnd _, _) :: _ => true
  | _ => false
  end.

(** ** Calls from one thread *)

Definition Inv (s : sync) : Prop :=
  (c_graph s = true -> c_loop s = true) /\
  times LoopOpened (c_log s) <= 1 /\ times GraphOpened (c_log s) <= 1 /\
  times LoopClosed (c_log s) <= times LoopOpened (c_log s) /\ times GraphClosed (c_log s) <= times GraphOpened (c_log s) /\
  (c_spinning s = true -> c_closed s = false /\ c_loop s = true /\ c_graph s = true) /\
  (c_requested s = true -> c_closed s = false -> c_spinning s = true) /\
  (c_closed s = true -> c_requested s = true) /\
  (c_closed s = false ->
     times LoopOpened (c_log s) = b2n (c_loop s) /\ times LoopClosed (c_log s) = 0 /\
     times GraphOpened (c_log s) = b2n (c_graph s) /\ times GraphClosed (c_log s) = 0).

Definition Released (s : sync) : Prop :=
  c_loop s = false /\ c_graph s = false /\
  times LoopClosed (c_log s) = times LoopOpened (c_log s) /\ times GraphClosed (c_log s) = times GraphOpened (c_log s).

Lemma finalize_inv ok s s' r : finalize ok s = (s', r) ->
  (c_graph s = true -> c_loop s = true) -> c_spinning s = false -> c_requested s = true ->
  times LoopOpened (c_log s) <= 1 -> times GraphOpened (c_log s) <= 1 ->
  times LoopClosed (c_log s) <= times LoopOpened (c_log s) -> times GraphClosed (c_log s) <= times GraphOpened (c_log s) ->
  (c_closed s = false ->
     times LoopOpened (c_log s) = b2n (c_loop s) /\ times LoopClosed (c_log s) = 0 /\
     times GraphOpened (c_log s) = b2n (c_graph s) /\ times GraphClosed (c_log s) = 0) ->
  Inv s' /\ c_closed s' = true /\ c_spinning s' = false /\ (ok = true -> (c_closed s = true -> Released s) -> Released s' /\ r = Ok).
Proof.
  intros F G Sp Rq L1 L2 L3 L4 C. unfold finalize in F. destruct (c_closed s) eqn:Cl.
  - injection F as <- <-. split; [|auto]. unfold Inv. rewrite Sp, Rq, Cl. split; [exact G|]. split; [exact L1|]. split; [exact L2|]. split; [exact L3|]. split; [exact L4|].
    split; [discriminate|]. split; [discriminate|]. split; [auto|discriminate].
  - destruct (C eq_refl) as (C1 & C2 & C3 & C4). destruct (c_loop s && c_graph s && negb ok) eqn:X; injection F as <- <-; cbn [c_closed c_spinning]; rewrite Sp.
    + split; [|split; [reflexivity|split; [reflexivity|]]].
      * unfold Inv. cbn [c_graph c_loop c_log c_spinning c_requested c_closed]. rewrite Rq, ?Sp. split; [exact G|]. split; [exact L1|]. split; [exact L2|]. split; [exact L3|]. split; [exact L4|].
        split; [discriminate|]. split; [discriminate|]. split; [auto|discriminate].
      * intros ->. rewrite andb_false_r in X. discriminate.
    + assert (Z : times LoopOpened ((if c_loop s then [LoopClosed] else []) ++ (if c_loop s && c_graph s then [GraphClosed] else []) ++ c_log s) = times LoopOpened (c_log s) /\
                  times LoopClosed ((if c_loop s then [LoopClosed] else []) ++ (if c_loop s && c_graph s then [GraphClosed] else []) ++ c_log s) = b2n (c_loop s) + times LoopClosed (c_log s) /\
                  times GraphOpened ((if c_loop s then [LoopClosed] else []) ++ (if c_loop s && c_graph s then [GraphClosed] else []) ++ c_log s) = times GraphOpened (c_log s) /\
                  times GraphClosed ((if c_loop s then [LoopClosed] else []) ++ (if c_loop s && c_graph s then [GraphClosed] else []) ++ c_log s) = b2n (c_loop s && c_graph s) + times GraphClosed (c_log s)).
      { rewrite !times_app. destruct (c_loop s), (c_graph s); cbn; auto. }
      assert (Bg : b2n (c_loop s && c_graph s) = b2n (c_graph s)) by (destruct (c_graph s); [rewrite (G eq_refl)|rewrite andb_false_r]; reflexivity).
      destruct Z as (Z1 & Z2 & Z3 & Z4). rewrite Bg in Z4. split; [|split; [reflexivity|split; [reflexivity|]]].
      * unfold Inv. cbn [c_graph c_loop c_log c_spinning c_requested c_closed]. rewrite Z1, Z2, Z3, Z4, Rq, ?Sp. split; [discriminate|]. split; [lia|]. split; [lia|]. split; [lia|]. split; [lia|].
        split; [discriminate|]. split; [discriminate|]. split; [auto|discriminate].
      * intros _ _. split; [|reflexivity]. split; [reflexivity|]. split; [reflexivity|]. cbn [c_log]. rewrite Z1, Z2, Z3, Z4. lia.
Qed.

Lemma sync_invariant h s : sync_after h s ->
  Inv s /\ ((forall c r, In (c, r) h -> exits_well c) -> (c_closed s = true -> Released s) /\ c_spinning s = in_spin h).
Proof.
  induction 1 as [|h s c s' r A (I & W) D].
  - split; [|split; [discriminate|reflexivity]]. unfold Inv. cbn. split; [discriminate|]. split; [lia|]. split; [lia|]. split; [lia|]. split; [lia|]. split; [discriminate|]. split; [discriminate|]. split; [discriminate|]. auto.
  - assert (W' : (forall c0 r0, In (c0, r0) ((c, r) :: h) -> exits_well c0) -> exits_well c /\ (c_closed s = true -> Released s) /\ c_spinning s = in_spin h).
    { intros X. split; [exact (X c r (or_introl eq_refl))|]. apply W. intros c0 r0 I0. exact (X c0 r0 (or_intror I0)). }
    pose proof I as (G & L1 & L2 & L3 & L4 & Sp & Rq & Cr & C). destruct c; cbn [sync_do] in D.
    + destruct (c_closed s) eqn:Cl; [injection D as <- <-; split; [exact I|]; intros X; rewrite Cl; destruct (W' X) as (_ & X1 & X2); split; [exact X1|exact X2]|].
      destruct (c_loop s) eqn:Lo; [injection D as <- <-; split; [exact I|]; intros X; rewrite Cl; destruct (W' X) as (_ & X1 & X2); split; [exact X1|exact X2]|].
      destruct (C eq_refl) as (C1 & C2 & C3 & C4). assert (Gf : c_graph s = false) by (destruct (c_graph s); [discriminate (G eq_refl)|reflexivity]). rewrite Gf in C3. cbn [b2n] in C1, C3.
      assert (Ns : c_spinning s = false) by (destruct (c_spinning s); [destruct (Sp eq_refl) as (_ & F & _); discriminate|reflexivity]).
      destruct ok; injection D as <- <-.
      * split; [|intros X; split; [intros F; discriminate F|apply (W' X)]]. unfold Inv. cbn [c_graph c_loop c_log c_spinning c_requested c_closed]. rewrite !times_cons.
        repeat (match goal with |- context [effect_dec ?a ?b] => destruct (effect_dec a b); try discriminate; try congruence end).
        cbn [b2n]. split; [auto|]. split; [lia|]. split; [lia|]. split; [lia|]. split; [lia|]. split; [auto|]. split; [exact Rq|]. split; [discriminate|]. intros _. lia.
      * split; [|intros X; split; [intros F; discriminate F|apply (W' X)]]. unfold Inv. cbn [c_graph c_loop c_log c_spinning c_requested c_closed]. rewrite !times_cons.
        repeat (match goal with |- context [effect_dec ?a ?b] => destruct (effect_dec a b); try discriminate; try congruence end).
        cbn [b2n]. split; [discriminate|]. split; [lia|]. split; [lia|]. split; [lia|]. split; [lia|]. split; [rewrite Ns; discriminate|]. split; [exact Rq|]. split; [discriminate|]. intros _. lia.
    + injection D as <- <-. split; [exact I|]. intros X. destruct (W' X) as (_ & X1 & X2). split; [exact X1|destruct (started s); exact X2].
    + destruct (c_spinning s) eqn:Ns.
      * injection D as <- <-. split; [|intros X; cbn [c_closed c_spinning]; destruct (W' X) as (_ & X1 & X2); split; [exact X1|exact X2]].
        unfold Inv. cbn [c_graph c_loop c_log c_spinning c_requested c_closed]. auto 12.
      * injection D as F. apply finalize_inv in F; cbn [c_graph c_loop c_log c_spinning c_requested c_closed]; auto. destruct F as (F1 & F2 & F3 & F4). split; [exact F1|].
        intros X. destruct (W' X) as ((X0 & _) & X1 & X2). assert (exit_ok = true) as -> by (destruct exit_ok; [reflexivity|contradiction]).
        destruct (F4 eq_refl X1) as (F5 & ->). split; [intros _; exact F5|]. rewrite F3. exact X2.
    + destruct (c_spinning s) eqn:Ns; [discriminate|]. cbn [orb] in D. destruct (c_round s) eqn:Cn; [discriminate|]. destruct (negb (started s)) eqn:St.
      * injection D as <- <-. split; [exact I|]. intros X. destruct (W' X) as (_ & X1 & X2). rewrite Ns. split; [exact X1|exact X2].
      * apply negb_false_iff in St. unfold started in St. apply andb_true_iff in St. destruct St as (St1 & St2). destruct (c_requested s) eqn:Re.
        -- injection D as <- <-. split; [exact I|]. intros X. destruct (W' X) as (_ & X1 & X2). split; [exact X1|]. destruct (c_closed s) eqn:Cl.
           ++ destruct (X1 eq_refl) as (Z & _). congruence.
           ++ discriminate (Rq eq_refl eq_refl).
        -- assert (Nc : c_closed s = false) by (destruct (c_closed s); [discriminate (Cr eq_refl)|reflexivity]). injection D as <- <-. rewrite Nc. split; [|intros X; split; [intros F; discriminate F|reflexivity]].
           unfold Inv. cbn [c_graph c_loop c_log c_spinning c_requested c_closed]. rewrite Nc in C. auto 12.
    + destruct (c_round s) eqn:Cn; [discriminate|]. destruct (negb (started s)) eqn:St.
      * injection D as <- <-. split; [exact I|]. intros X. destruct (W' X) as (_ & X1 & X2). split; [exact X1|exact X2].
      * destruct (c_requested s) eqn:Re; injection D as <- <-.
        -- split; [exact I|]. intros X. destruct (W' X) as (_ & X1 & X2). split; [exact X1|exact X2].
        -- split; [|intros X; destruct (W' X) as (_ & X1 & X2); split; [exact X1|exact X2]]. unfold Inv. cbn [c_graph c_loop c_log c_spinning c_requested c_closed]. rewrite <- Re in *. auto 12.
    + destruct (c_round s) eqn:Cn; [|discriminate]. cbn [negb] in D. injection D as <- <-. split; [exact I|]. intros X. destruct (W' X) as (_ & X1 & X2). split; [exact X1|destruct (c_loop s); exact X2].
    + destruct (c_spinning s) eqn:Ns; [|discriminate]. cbn [negb orb] in D. destruct (c_round s) eqn:Cn; [discriminate|]. injection D as F. destruct (Sp eq_refl) as (Sc & Sl & Sg).
      apply finalize_inv in F; cbn [c_graph c_loop c_log c_spinning c_requested c_closed]; auto. destruct F as (F1 & F2 & F3 & F4). split; [exact F1|].
      intros X. destruct (W' X) as ((_ & X0) & X1 & X2). assert (exit_ok = true) as -> by (destruct exit_ok; [reflexivity|contradiction]).
      destruct (F4 eq_refl X1) as (F5 & ->). split; [intros _; exact F5|]. rewrite F3. reflexivity.
Qed.

(** C59.  Whatever goes wrong, the event loop and the graph context are opened at most once and
    closed at most once, and only if they were opened. *)
Theorem C59_sync_opens_and_closes_at_most_once :
  forall h s, sync_after h s ->
    times LoopOpened (c_log s) <= 1 /\ times GraphOpened (c_log s) <= 1 /\
    times LoopClosed (c_log s) <= times LoopOpened (c_log s) /\ times GraphClosed (c_log s) <= times GraphOpened (c_log s).
Proof. intros h s A. destruct (sync_invariant h s A) as ((_ & L1 & L2 & L3 & L4 & _) & _). auto. Qed.
Print Assumptions C59_sync_opens_and_closes_at_most_once.

(** C59.  If leaving the graph context does not fail: a use succeeds exactly while the graph context
    is open. *)
Theorem C59_sync_use_raises_unless_open :
  forall h s, sync_after h s -> (forall c r, In (c, r) h -> exits_well c) ->
    sync_do s SUse = Some (s, if (times GraphOpened (c_log s) =? 1) && (times GraphClosed (c_log s) =? 0) then Ok else Error).
Proof.
  intros h s A X. destruct (sync_invariant h s A) as ((G & L1 & L2 & L3 & L4 & Sp & Rq & Cr & C) & W). destruct (W X) as (R & _). cbn [sync_do]. unfold started.
  destruct (c_closed s) eqn:Cl.
  - destruct (R eq_refl) as (R1 & R2 & R3 & R4). rewrite R1, R2, R4. cbn. destruct (times GraphOpened (c_log s)) as [|[|k]]; cbn; [reflexivity|reflexivity|lia].
  - destruct (C eq_refl) as (C1 & C2 & C3 & C4). rewrite C3, C4. destruct (c_graph s) eqn:Gr; [rewrite (G eq_refl)|rewrite andb_false_r]; reflexivity.
Qed.
Print Assumptions C59_sync_use_raises_unless_open.

(** C59.  If leaving the graph context does not fail: once the context has been shut down - by a
    shutdown outside spin, or at the end of spin - everything opened has been closed, once, and for
    ever after entering, using and spinning raise, shutting down returns, and nothing is opened or
    closed. *)
Theorem C59_sync_shutdown_is_final :
  forall later h s, sync_after (later ++ h) s -> (forall c r, In (c, r) (later ++ h) -> exits_well c) -> ends h = true ->
    times LoopClosed (c_log s) = times LoopOpened (c_log s) /\ times GraphClosed (c_log s) = times GraphOpened (c_log s) /\
    (forall s0, sync_after h s0 -> c_log s = c_log s0) /\
    (forall ok, sync_do s (SEnter ok) = Some (s, Error)) /\ sync_do s SUse = Some (s, Error) /\
    (c_round s = false -> sync_do s SSpin = Some (s, Error) /\ sync_do s SRound = Some (s, Error)) /\
    (forall ok, sync_do s (SShutdown ok) = Some (s, Ok)).
Proof.
  assert (Fn : forall h s s', sync_after h s -> sync_after h s' -> s = s').
  { intros h s s' A. revert s'. induction A as [|h s c s1 r A IH D]; intros s' B; inversion B; subst; [reflexivity|]. match goal with K : sync_after h ?x |- _ => specialize (IH x K); subst end. congruence. }
  assert (E0 : forall h s, sync_after h s -> (forall c r, In (c, r) h -> exits_well c) -> ends h = true -> c_closed s = true).
  { intros h s A X E. inversion A as [|h0 s0 c s1 r A0 D]; subst; [discriminate|]. destruct (sync_invariant _ _ A0) as (_ & W).
    destruct (W (fun c0 r0 I0 => X c0 r0 (or_intror I0))) as (_ & Q). destruct c; try discriminate; cbn [ends] in E; cbn [sync_do] in D.
    - rewrite Q in D. apply negb_true_iff in E. rewrite E in D. injection D as F. unfold finalize in F. destruct (c_closed _) eqn:Cl in F; [injection F as <- _; reflexivity|].
      destruct (_ && _) in F; injection F as <- _; reflexivity.
    - destruct (negb (c_spinning s0) || c_round s0); [discriminate|]. injection D as F. unfold finalize in F. destruct (c_closed _) eqn:Cl in F; [injection F as <- _; reflexivity|].
      destruct (_ && _) in F; injection F as <- _; reflexivity. }
  assert (Ev : forall later h s, sync_after (later ++ h) s -> (forall c r, In (c, r) (later ++ h) -> exits_well c) -> ends h = true ->
     c_closed s = true /\ forall s0, sync_after h s0 -> c_log s = c_log s0).
  { induction later as [|[c r] later IH]; intros h s A X E; cbn [app] in *.
    - split; [exact (E0 h s A X E)|]. intros s0 B. rewrite (Fn h s s0 A B). reflexivity.
    - inversion A as [|h0 s0 c0 s1 r0 A0 D]; subst. destruct (IH h s0 A0 (fun c1 r1 I1 => X c1 r1 (or_intror I1)) E) as (K1 & K2).
      destruct (sync_invariant _ _ A0) as (_ & W). destruct (W (fun c1 r1 I1 => X c1 r1 (or_intror I1))) as (R & _). destruct (R K1) as (R1 & R2 & _).
      assert (c_closed s = true /\ c_log s = c_log s0) as (Z1 & Z2); [|split; [exact Z1|intros t B; rewrite Z2; exact (K2 t B)]].
      destruct c; cbn [sync_do] in D.
      + rewrite K1 in D. injection D as <- _. auto.
      + injection D as <- _. auto.
      + destruct (c_spinning s0); [injection D as <- _; auto|]. unfold finalize in D. cbn [c_closed] in D. rewrite K1 in D. injection D as <- _. auto.
      + destruct (c_spinning s0 || c_round s0); [discriminate|]. unfold started in D. rewrite R1 in D. cbn in D. injection D as <- _. auto.
      + destruct (c_round s0); [discriminate|]. unfold started in D. rewrite R1 in D. cbn in D. injection D as <- _. auto.
      + destruct (c_round s0); [|discriminate]. injection D as <- _. auto.
      + destruct (negb (c_spinning s0) || c_round s0); [discriminate|]. unfold finalize in D. cbn [c_closed] in D. rewrite K1 in D. injection D as <- _. auto. }
  intros later h s A X E. destruct (Ev later h s A X E) as (Cl & Lg). destruct (sync_invariant _ _ A) as ((_ & _ & _ & _ & _ & Sp & _ & Cr & _) & W). destruct (W X) as (R & _).
  destruct (R Cl) as (R1 & R2 & R3 & R4). split; [exact R3|]. split; [exact R4|]. split; [exact Lg|].
  assert (Ns : c_spinning s = false) by (destruct (c_spinning s); [destruct (Sp eq_refl); congruence|reflexivity]).
  split; [intros ok; cbn [sync_do]; rewrite Cl; reflexivity|]. split; [cbn [sync_do]; unfold started; rewrite R1; reflexivity|].
  split; [intros Nr; cbn [sync_do]; unfold started; rewrite Ns, Nr, R1; split; reflexivity|].
  intros ok. cbn [sync_do]. rewrite Ns. unfold finalize. cbn [c_closed]. rewrite Cl. pose proof (Cr Cl) as Cq. destruct s; cbn in *. rewrite Cq, Ns, Cl. reflexivity.
Qed.
Print Assumptions C59_sync_shutdown_is_final.

(** C59, partial.  Inside spin, a callback may shut the context down: releasing its message still
    succeeds.  Missing: spin_once called directly, where it does not, see below. *)
Theorem C59_shutdown_in_a_callback_partial :
  forall h s s' r, sync_after h s -> (forall c r, In (c, r) h -> exits_well c) -> in_spin h = true ->
    sync_do s SRoundEnd = Some (s', r) -> r = Ok.
Proof.
  intros h s s' r A X N D. destruct (sync_invariant _ _ A) as ((_ & _ & _ & _ & _ & Sp & _) & W). destruct (W X) as (_ & Q). rewrite N in Q. destruct (Sp Q) as (_ & L & _).
  cbn [sync_do] in D. destruct (negb (c_round s)); [discriminate|]. rewrite L in D. injection D as _ <-. reflexivity.
Qed.
Print Assumptions C59_shutdown_in_a_callback_partial.

(** ** Cases *)

Fixpoint sync_run (cs : list sync_call) : option (list (sync_call * sync_result) * sync) :=
  match cs with
  | [] => Some ([], new_sync)
  | c :: cs => match sync_run cs with
               | Some (h, s) => match sync_do s c with Some (s', r) => Some ((c, r) :: h, s') | None => None end
               | None => None
               end
  end.

Lemma sync_run_after cs : forall h s, sync_run cs = Some (h, s) -> sync_after h s.
Proof.
  induction cs as [|c cs IH]; intros h s E; cbn [sync_run] in E; [injection E as <- <-; constructor|].
  destruct (sync_run cs) as [[h0 s0]|]; [|discriminate]. destruct (sync_do s0 c) as [[s1 r]|] eqn:D; [|discriminate]. injection E as <- <-.
  eapply sync_after_call; [apply IH; reflexivity|exact D].
Qed.

(** A callback shuts down a spinning context. *)
Example C59_case_sync :
  exists s, sync_after [(SShutdown true, Ok); (SUse, Error); (SSpinEnd true, Ok); (SRoundEnd, Ok); (SUse, Ok); (SShutdown true, Ok); (SRound, Ok); (SSpin, Ok); (SUse, Ok); (SEnter true, Ok); (SEnter true, Ok); (SUse, Error)] s /\
    (forall c r, In (c, r) [(SShutdown true, Ok); (SUse, Error); (SSpinEnd true, Ok); (SRoundEnd, Ok); (SUse, Ok); (SShutdown true, Ok); (SRound, Ok); (SSpin, Ok); (SUse, Ok); (SEnter true, Ok); (SEnter true, Ok); (SUse, Error)] -> exits_well c) /\
    ends [(SSpinEnd true, Ok); (SRoundEnd, Ok); (SUse, Ok); (SShutdown true, Ok); (SRound, Ok); (SSpin, Ok); (SUse, Ok); (SEnter true, Ok); (SEnter true, Ok); (SUse, Error)] = true /\
    c_log s = [LoopClosed; GraphClosed; GraphOpened; LoopOpened].
Proof.
  eexists. split; [apply (sync_run_after [SShutdown true; SUse; SSpinEnd true; SRoundEnd; SUse; SShutdown true; SRound; SSpin; SUse; SEnter true; SEnter true; SUse]); vm_compute; reflexivity|].
  split; [|split; reflexivity]. intros c r I. cbn in I.
  repeat (destruct I as [I|I]; [injection I as <- <-; split; discriminate|]). destruct I.
Qed.

(** C59 finding: a callback called by spin_once directly shuts the context down: releasing the
    message then fails with an AttributeError, because the loop is gone. *)
Theorem C59_shutdown_in_a_callback_of_spin_once_refuted :
  exists s, sync_after [(SRoundEnd, Crash); (SShutdown true, Ok); (SRound, Ok); (SEnter true, Ok)] s.
Proof. eexists. apply (sync_run_after [SRoundEnd; SShutdown true; SRound; SEnter true]). vm_compute. reflexivity. Qed.
Print Assumptions C59_shutdown_in_a_callback_of_spin_once_refuted.

(** C59 finding: if entering fails because there is no graph server, the event loop goes on, and
    entering again returns a context that cannot be used. *)
Theorem C59_failed_enter_refuted :
  exists s, sync_after [(SUse, Error); (SEnter true, Ok); (SEnter false, Error)] s /\
    times LoopOpened (c_log s) = 1 /\ times LoopClosed (c_log s) = 0.
Proof. eexists. split; [apply (sync_run_after [SUse; SEnter true; SEnter false]); vm_compute; reflexivity|]. split; reflexivity. Qed.
Print Assumptions C59_failed_enter_refuted.

(** ** Shutdown from other threads *)

(** All threads have returned. *)
Definition all_done (m : shared) : Prop := spinner m = Pdone /\ forall pc, In pc (stoppers m) -> pc = Sdone.

Definition releasing (m : shared) : Prop := spinner m = PFrelease \/ In Frelease (stoppers m).
Definition will_release (m : shared) : Prop :=
  spinner m = PFread \/ spinner m = PFset \/ In Fread (stoppers m) \/ In Fset (stoppers m).
Definition will_see (m : shared) : Prop :=
  In Sread (stoppers m) \/ spinner m = Ploop \/ spinner m = Pclear \/ spinner m = Pcheck.

Definition Safe (m : shared) : Prop :=
  (closed m = true -> 1 <= releases m \/ releasing m) /\
  (releasing m -> closed m = true) /\
  (requested m = true -> closed m = true \/ will_release m \/ will_see m) /\
  (spinning m = true -> spinner m = Ploop \/ spinner m = Pclear) /\
  (requested m = false -> forall pc, In pc (stoppers m) -> pc = Sset).

Lemma In_mid {A} (a b : list A) x y : In x (a ++ y :: b) <-> x = y \/ In x (a ++ b).
Proof. rewrite !in_app_iff. cbn [In]. split; [intros [H|[H|H]]; auto|intros [H|[H|H]]; auto]. Qed.

Ltac pick := first [assumption | reflexivity | left; pick | right; pick].

Ltac finish :=
  repeat match goal with
  | H : _ \/ _ |- _ => destruct H
  | H : _ /\ _ |- _ => destruct H
  | H : ?a = ?b |- _ => discriminate H
  end; pick.

Lemma safe n m : reachable n m -> Safe m.
Proof.
  induction 1 as [|m m' R (S1 & S2 & S3 & S4 & S5) St].
  - split; [discriminate|]. split; [intros [H|H]; [discriminate|apply repeat_spec in H; discriminate]|]. split; [discriminate|]. split; [discriminate|].
    intros _ pc I. apply repeat_spec in I. exact I.
  - destruct St as [m m' E|m a pc b m' pc' Es E].
    + unfold spin_step in E. unfold Safe, releasing, will_release, will_see in *. destruct (spinner m) eqn:Sp; [| | | | | | | |discriminate]; injection E as <-; cbn [requested spinning closed releases spinner stoppers].
      * split; [intros C; specialize (S1 C); finish|]. split; [destruct (requested m); intros H; apply S2; finish|]. split; [intros Rq; rewrite Rq; specialize (S3 Rq); finish|].
        split; [intros H; specialize (S4 H); finish|exact S5].
      * split; [intros C; specialize (S1 C); finish|]. split; [intros H; apply S2; finish|]. split; [pick|]. split; [auto|exact S5].
      * split; [intros C; specialize (S1 C); finish|]. split; [destruct (requested m); intros H; apply S2; finish|]. split; [intros Rq; rewrite Rq; pick|].
        split; [intros H; destruct (requested m); pick|exact S5].
      * split; [intros C; specialize (S1 C); finish|]. split; [intros H; apply S2; finish|]. split; [pick|]. split; [discriminate|exact S5].
      * split; [intros C; specialize (S1 C); finish|]. split; [destruct (requested m && negb (closed m)); intros H; apply S2; finish|].
        split; [intros Rq; rewrite Rq; destruct (closed m); cbn [andb negb]; pick|]. split; [intros H; specialize (S4 H); finish|exact S5].
      * split; [intros C; specialize (S1 C); finish|]. split; [destruct (closed m) eqn:Cl; intros H; [reflexivity|]; apply S2; finish|].
        split; [intros Rq; destruct (closed m); pick|]. split; [intros H; specialize (S4 H); finish|exact S5].
      * split; [auto|]. split; [reflexivity|]. split; [auto|]. split; [intros H; specialize (S4 H); finish|exact S5].
      * assert (C : closed m = true) by auto. split; [intros _; left; lia|]. split; [auto|]. split; [auto|]. split; [intros H; specialize (S4 H); finish|exact S5].
    + unfold Safe, releasing, will_release, will_see in *. rewrite Es in *. assert (Q : forall x, In x (a ++ pc' :: b) <-> x = pc' \/ In x (a ++ b)) by (intros x; apply In_mid).
      assert (P : forall x, In x (a ++ pc :: b) <-> x = pc \/ In x (a ++ b)) by (intros x; apply In_mid). rewrite !P in *.
      destruct pc; cbn [stop_step] in E; [| | | | |discriminate]; injection E as <- <-; cbn [requested spinning closed releases spinner stoppers]; rewrite !Q.
      * split; [intros C; specialize (S1 C); finish|]. split; [intros H; apply S2; finish|]. split; [pick|]. split; [exact S4|discriminate].
      * split; [intros C; specialize (S1 C); finish|]. split; [destruct (spinning m); intros H; apply S2; finish|]. split.
        -- intros Rq. specialize (S3 Rq). destruct (spinning m); [specialize (S4 eq_refl)|]; finish.
        -- split; [exact S4|]. intros Rq x I. exfalso. assert (F : Sread = Sset) by (apply (S5 Rq); apply P; auto). discriminate.
      * split; [intros C; specialize (S1 C); finish|]. split; [destruct (closed m) eqn:Cl; intros H; [reflexivity|]; apply S2; finish|].
        split; [intros Rq; specialize (S3 Rq); destruct (closed m); finish|].
        split; [exact S4|]. intros Rq x I. exfalso. assert (F : Fread = Sset) by (apply (S5 Rq); apply P; auto). discriminate.
      * split; [auto|]. split; [reflexivity|]. split; [auto|]. split; [exact S4|]. intros Rq x I. exfalso. assert (F : Fset = Sset) by (apply (S5 Rq); apply P; auto). discriminate.
      * assert (C : closed m = true) by auto. split; [intros _; left; lia|]. split; [auto|]. split; [auto|]. split; [exact S4|].
        intros Rq x I. exfalso. assert (F : Frelease = Sset) by (apply (S5 Rq); apply P; auto). discriminate.
Qed.

Lemma stoppers_length n m : reachable n m -> length (stoppers m) = n.
Proof.
  induction 1 as [|m m' R IH St]; [apply repeat_length|]. destruct St as [m m' E|m a pc b m' pc' Es E].
  - unfold spin_step in E. destruct (spinner m); try discriminate; injection E as <-; exact IH.
  - cbn [stoppers]. rewrite Es, app_length in IH. rewrite app_length. exact IH.
Qed.

(** C59.  However the steps of one spinning thread and of any number of threads calling shutdown
    interleave: if shutdown has been called and all have returned, everything has been released. *)
Theorem C59_shutdown_is_not_lost :
  forall n m, reachable n m -> 1 <= n -> all_done m -> 1 <= releases m.
Proof.
  intros n m R N (D1 & D2). destruct (safe n m R) as (S1 & S2 & S3 & S4 & S5). pose proof (stoppers_length n m R) as L.
  assert (NR : ~ releasing m) by (intros [H|H]; [congruence|apply D2 in H; discriminate]).
  assert (Rq : requested m = true).
  { destruct (requested m) eqn:E; [reflexivity|]. destruct (stoppers m) as [|pc r] eqn:Es; [cbn in L; lia|]. pose proof (S5 eq_refl pc (or_introl eq_refl)). pose proof (D2 pc (or_introl eq_refl)). congruence. }
  destruct (S3 Rq) as [C|[[H|[H|[H|H]]]|[H|[H|[H|H]]]]]; try congruence; try (apply D2 in H; discriminate).
  destruct (S1 C) as [H|H]; [exact H|contradiction].
Qed.
Print Assumptions C59_shutdown_is_not_lost.

(** Runs of the threads: None, the spinning thread makes a step; Some i, the i-th other one. *)
Fixpoint sched (ks : list (option nat)) (m : shared) : option shared :=
  match ks with
  | [] => Some m
  | None :: ks => match spin_step m with Some m' => sched ks m' | None => None end
  | Some i :: ks =>
      match nth_error (stoppers m) i with
      | Some pc => match stop_step m pc with
                   | Some (m', pc') => sched ks (Shared (requested m') (spinning m') (closed m') (releases m') (spinner m') (firstn i (stoppers m) ++ pc' :: skipn (S i) (stoppers m)))
                   | None => None
                   end
      | None => None
      end
  end.

Lemma sched_reachable n : forall ks m m', reachable n m -> sched ks m = Some m' -> reachable n m'.
Proof.
  induction ks as [|[i|] ks IH]; intros m m' R E; cbn [sched] in E; [injection E as <-; exact R| |].
  - destruct (nth_error (stoppers m) i) as [pc|] eqn:En; [|discriminate]. destruct (stop_step m pc) as [[m1 pc1]|] eqn:Es; [|discriminate].
    eapply IH; [|exact E]. eapply reachable_step; [exact R|]. eapply step_stop; [|exact Es]. apply nth_error_split in En. destruct En as (l1 & l2 & El & <-).
    rewrite El, firstn_app, Nat.sub_diag, firstn_all, firstn_O, app_nil_r, skipn_app.
    rewrite (skipn_all2 l1) by lia. replace (S (length l1) - length l1) with 1 by lia. reflexivity.
  - destruct (spin_step m) as [m1|] eqn:Es; [|discriminate]. eapply IH; [|exact E]. eapply reachable_step; [exact R|]. apply step_spin. exact Es.
Qed.

Example C59_case_threads :
  exists m, reachable 2 m /\ all_done m /\ releases m = 1.
Proof.
  eexists. split; [eapply (sched_reachable 2 [None; None; Some 0; Some 0; None; Some 1; None; Some 1; None; None; None; None; Some 1]); [constructor|vm_compute; reflexivity]|].
  split; [|reflexivity]. split; [reflexivity|]. intros pc [<-|[<-|[]]]; reflexivity.
Qed.

(** C59 finding: two threads that shut the context down at the same time may both release it: the
    test of _closed and its setting are two steps. *)
Theorem C59_simultaneous_shutdowns_release_twice_refuted :
  exists m, reachable 2 m /\ all_done m /\ releases m = 2.
Proof.
  eexists. split; [eapply (sched_reachable 2 [Some 0; Some 1; Some 0; Some 1; Some 0; Some 1; Some 0; Some 1; Some 0; Some 1; None]); [constructor|vm_compute; reflexivity]|].
  split; [|reflexivity]. split; [reflexivity|]. intros pc [<-|[<-|[]]]; reflexivity.
Qed.
Print Assumptions C59_simultaneous_shutdowns_release_twice_refuted.
