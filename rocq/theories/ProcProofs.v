(* Proofs about the processes of a pipeline (used by ProcProps.v). *)

From Coq Require Import List Bool Arith Lia FinFun.
From Verif Require Import ProcModel ProcSpec.
Import ListNotations.

Lemma upd_same i p f : upd i p f i = p.
Proof. unfold upd. now rewrite Nat.eqb_refl. Qed.
Lemma upd_other i p f j : j <> i -> upd i p f j = f j.
Proof. intros Hn. unfold upd. destruct (j =? i) eqn:E; [apply Nat.eqb_eq in E; contradiction|reflexivity]. Qed.

Lemma good_calm h : Forall good_event h -> Forall calm_event h.
Proof. apply Forall_impl. intros e. destruct e; cbn; tauto. Qed.

Section Proofs.
Variable n : nat.
Variable conf : nat -> config.
Variable workers : nat.
Variable with_participant : bool.

Notation step := (step n conf workers).
Notation after := (after n conf workers with_participant).
Notation init := (init with_participant).

Lemma all_spec P f : all n P f = true <-> forall i, i < n -> P (f i) = true.
Proof.
  unfold all. rewrite forallb_forall. split; intros Hx i Hi.
  - apply Hx. apply in_seq. lia.
  - apply Hx. apply in_seq in Hi. lia.
Qed.

Lemma at_start_spec p : at_start p = true <-> at_ p = AtStart.
Proof. unfold at_start. destruct (at_ p); split; intros; congruence. Qed.
Lemma at_stop_spec p : at_stop p = true <-> at_ p = AtStop.
Proof. unfold at_stop. destruct (at_ p); split; intros; congruence. Qed.

Definition early (p : proc) : Prop := at_ p = Setup \/ at_ p = AtStart.
Definition late (p : proc) : Prop := at_ p = AtStop \/ at_ p = Shutdown \/ exists c, at_ p = Ended c.
Definition idle (p : proc) : Prop := running p = [] /\ in_threads p = 0 /\ in_main p = false.

Record Inv (h : list event) (s : system) : Prop := {
  iv_out : forall i, n <= i -> at_ (procs s i) = Setup;
  iv_setup : forall i, set_up (procs s i) = units_set_up i h;
  iv_start : forall i, at_ (procs s i) = AtStart -> set_up (procs s i) = units (conf i);
  iv_open : start_open s = true ->
            participant s = false /\ start_broken s = false /\
            forall i, i < n -> set_up (procs s i) = units (conf i) /\ at_ (procs s i) <> Setup;
  iv_run : forall i, at_ (procs s i) = Run -> start_open s = true;
  iv_active : forall i, ~ idle (procs s i) -> start_open s = true;
  iv_early : forall i, early (procs s i) -> idle (procs s i);
  iv_broken : forall i, In (SetupFails i) h -> start_broken s = true;
  iv_fails : start_broken s = true -> exists i, In (SetupFails i) h;
  iv_stop : stop_open s = true -> forall i, i < n -> late (procs s i);
  iv_shutdown : forall i, at_ (procs s i) = Shutdown -> stop_open s = true;
  iv_shut : shut s <> [] -> stop_open s = true;
  iv_gone : forall i, In (SetupFails i) h \/ In (Crash i) h ->
            i < n /\ at_ (procs s i) = Ended false /\ stop_open s = false;
  iv_ended : forall i c, at_ (procs s i) = Ended c ->
             stop_open s = true \/ In (SetupFails i) h \/ In (Crash i) h;
  iv_starts : 0 < n -> participant s = false -> start_broken s = false ->
              (forall i, i < n -> at_ (procs s i) = AtStart) -> start_open s = true;
  iv_stops : 0 < n -> (forall i, i < n -> at_ (procs s i) = AtStop) -> stop_open s = true
}.

Lemma Inv_init : Inv [] init.
Proof.
  split; cbn.
  - reflexivity.
  - reflexivity.
  - discriminate.
  - discriminate.
  - discriminate.
  - intros i Hi. exfalso. apply Hi. repeat split.
  - intros i _. repeat split.
  - intros i [].
  - discriminate.
  - discriminate.
  - discriminate.
  - congruence.
  - intros i [[]|[]].
  - discriminate.
  - intros Hn _ _ Ha. discriminate (Ha 0 Hn).
  - intros Hn Ha. discriminate (Ha 0 Hn).
Qed.

(** The shape of every step. *)
Lemma step_shape s e s' : step s e = Some s' ->
  match e with
  | SetTerm => s' = set_term s
  | ParticipantComes =>
      participant s = true /\
      ((start_broken s = false /\
        s' = System (procs s) (term_ev s) (all n at_start (procs s)) false false (stop_open s) (shut s)) \/
       (start_broken s = true /\
        s' = System (procs s) true (start_open s) true false (stop_open s) (shut s)))
  | SetupUnit i =>
      at_ (procs s i) = Setup /\ i < n /\ set_up (procs s i) < units (conf i) /\
      s' = set_proc i (Proc Setup (S (set_up (procs s i))) (running (procs s i)) (in_threads (procs s i))
                            (monitor (procs s i)) (in_main (procs s i)) (failed (procs s i))) s
  | SetupFails i =>
      at_ (procs s i) = Setup /\ i < n /\
      s' = System (upd i (set_at (Ended false) (procs s i)) (procs s)) (term_ev s) (start_open s) true
                  (participant s) (stop_open s) (shut s)
  | SetupDone i =>
      at_ (procs s i) = Setup /\ i < n /\ set_up (procs s i) = units (conf i) /\ s' = come_to_start n i s
  | PassStart i =>
      at_ (procs s i) = AtStart /\ start_open s = true /\
      s' = set_proc i (Proc Run (set_up (procs s i)) (seq 0 (tasks (conf i))) (threads (conf i)) (monitor (procs s i))
                            (has_main (conf i)) (failed (procs s i))) s
  | StartBroken i =>
      at_ (procs s i) = AtStart /\ start_broken s = true /\ s' = come_to_stop n i (procs s i) s
  | ThreadEnds i =>
      exists k, in_threads (procs s i) = S k /\
      s' = set_proc i (Proc (at_ (procs s i)) (set_up (procs s i)) (running (procs s i)) k (monitor (procs s i))
                            (in_main (procs s i)) (failed (procs s i))) s
  | MonitorStarts i =>
      (at_ (procs s i) = Run \/ at_ (procs s i) = AtStop \/ at_ (procs s i) = Shutdown) /\
      start_open s = true /\ monitor (procs s i) = false /\ in_threads (procs s i) < workers /\
      s' = set_proc i (Proc (at_ (procs s i)) (set_up (procs s i)) (running (procs s i)) (in_threads (procs s i)) true
                            (in_main (procs s i)) (failed (procs s i))) s
  | TaskEnds i k => In k (running (procs s i)) /\ s' = set_proc i (end_task k (procs s i)) s
  | TaskTerminates i k => In k (running (procs s i)) /\ s' = set_term (set_proc i (end_task k (procs s i)) s)
  | TaskCancelled i k =>
      In k (running (procs s i)) /\ monitor (procs s i) = true /\ term_ev s = true /\
      s' = set_proc i (end_task k (procs s i)) s
  | MainReturns i =>
      at_ (procs s i) = Run /\ in_main (procs s i) = true /\
      s' = set_proc i (end_main (failed (procs s i)) (procs s i)) s
  | MainTerminates i =>
      at_ (procs s i) = Run /\ in_main (procs s i) = true /\
      s' = set_term (set_proc i (end_main (failed (procs s i)) (procs s i)) s)
  | MainRaises i =>
      at_ (procs s i) = Run /\ in_main (procs s i) = true /\ s' = come_to_stop n i (end_main true (procs s i)) s
  | Interrupt i => at_ (procs s i) = Run /\ s' = come_to_stop n i (end_main true (procs s i)) s
  | AllDone i =>
      at_ (procs s i) = Run /\ running (procs s i) = [] /\ in_main (procs s i) = false /\
      s' = come_to_stop n i (procs s i) s
  | PassStop i =>
      at_ (procs s i) = AtStop /\ stop_open s = true /\
      s' = set_term (set_proc i (set_at Shutdown (procs s i)) s)
  | ShutUnit i =>
      at_ (procs s i) = Shutdown /\ length (filter (fun x => fst x =? i) (shut s)) < units (conf i) /\
      s' = System (procs s) (term_ev s) (start_open s) (start_broken s) (participant s) (stop_open s)
                  ((i, length (filter (fun x => fst x =? i) (shut s))) :: shut s)
  | ShutFails i =>
      at_ (procs s i) = Shutdown /\ length (filter (fun x => fst x =? i) (shut s)) < units (conf i) /\
      s' = set_proc i (set_at (Ended false) (procs s i)) s
  | Finish i =>
      at_ (procs s i) = Shutdown /\ length (filter (fun x => fst x =? i) (shut s)) = units (conf i) /\
      s' = set_proc i (set_at (Ended (negb (failed (procs s i)))) (procs s i)) s
  | Crash i =>
      (at_ (procs s i) = Setup \/ at_ (procs s i) = Run) /\ i < n /\
      s' = set_proc i (Proc (Ended false) (set_up (procs s i)) [] 0 false false true) s
  end.
Proof.
  assert (Hex : forall k l, existsb (Nat.eqb k) l = true -> In k l).
  { intros k l Hx. apply existsb_exists in Hx. destruct Hx as (y & Hy & E). apply Nat.eqb_eq in E. congruence. }
  intros Hs. destruct e; cbn [ProcModel.step] in Hs.
  - destruct (at_ (procs s i)) eqn:Ea; try discriminate Hs.
    destruct ((i <? n) && (set_up (procs s i) <? units (conf i))) eqn:Ec; [|discriminate Hs].
    apply andb_true_iff in Ec. destruct Ec as [Ei Eu]. apply Nat.ltb_lt in Ei, Eu. injection Hs as <-. auto.
  - destruct (at_ (procs s i)) eqn:Ea; try discriminate Hs. destruct (i <? n) eqn:Ei; [|discriminate Hs].
    apply Nat.ltb_lt in Ei. injection Hs as <-. auto.
  - destruct (at_ (procs s i)) eqn:Ea; try discriminate Hs.
    destruct ((i <? n) && (set_up (procs s i) =? units (conf i))) eqn:Ec; [|discriminate Hs].
    apply andb_true_iff in Ec. destruct Ec as [Ei Eu]. apply Nat.ltb_lt in Ei. apply Nat.eqb_eq in Eu. injection Hs as <-. auto.
  - destruct (participant s) eqn:Ep; cbn [andb] in Hs; [|discriminate Hs].
    destruct (start_broken s) eqn:Eb; cbn [negb] in Hs; injection Hs as <-; auto.
  - destruct (at_ (procs s i)) eqn:Ea; try discriminate Hs.
    destruct (start_open s) eqn:Eo; [|discriminate Hs]. injection Hs as <-. auto.
  - destruct (at_ (procs s i)) eqn:Ea; try discriminate Hs.
    destruct (start_broken s) eqn:Eo; [|discriminate Hs]. injection Hs as <-. auto.
  - destruct (in_threads (procs s i)) as [|k] eqn:Et; [discriminate Hs|]. injection Hs as <-. exists k. auto.
  - assert (Hg : (at_ (procs s i) = Run \/ at_ (procs s i) = AtStop \/ at_ (procs s i) = Shutdown) /\
                 (if start_open s && negb (monitor (procs s i)) && (in_threads (procs s i) <? workers)
                  then Some (set_proc i (Proc (at_ (procs s i)) (set_up (procs s i)) (running (procs s i)) (in_threads (procs s i)) true
                            (in_main (procs s i)) (failed (procs s i))) s) else None) = Some s').
    { destruct (at_ (procs s i)); try discriminate Hs; split; auto. }
    clear Hs. destruct Hg as [Ha Hs]. split; [exact Ha|].
    destruct (start_open s && negb (monitor (procs s i)) && (in_threads (procs s i) <? workers)) eqn:Ec; [|discriminate Hs].
    apply andb_true_iff in Ec. destruct Ec as [Ec Ew]. apply andb_true_iff in Ec. destruct Ec as [Eo Em].
    apply Nat.ltb_lt in Ew. apply negb_true_iff in Em. injection Hs as <-. auto.
  - destruct (existsb (Nat.eqb k) (running (procs s i))) eqn:Ee; [|discriminate Hs]. injection Hs as <-. auto.
  - destruct (existsb (Nat.eqb k) (running (procs s i))) eqn:Ee; [|discriminate Hs]. injection Hs as <-. auto.
  - destruct (existsb (Nat.eqb k) (running (procs s i))) eqn:Ee; [|discriminate Hs]. cbn [andb] in Hs.
    destruct (monitor (procs s i)) eqn:Em; [|discriminate Hs]. cbn [andb] in Hs.
    destruct (term_ev s) eqn:Et; [|discriminate Hs]. injection Hs as <-. auto.
  - destruct (at_ (procs s i)) eqn:Ea; try discriminate Hs. destruct (in_main (procs s i)) eqn:Em; [|discriminate Hs].
    injection Hs as <-. auto.
  - destruct (at_ (procs s i)) eqn:Ea; try discriminate Hs. destruct (in_main (procs s i)) eqn:Em; [|discriminate Hs].
    injection Hs as <-. auto.
  - destruct (at_ (procs s i)) eqn:Ea; try discriminate Hs. destruct (in_main (procs s i)) eqn:Em; [|discriminate Hs].
    injection Hs as <-. auto.
  - destruct (at_ (procs s i)) eqn:Ea; try discriminate Hs. injection Hs as <-. auto.
  - destruct (at_ (procs s i)) eqn:Ea; try discriminate Hs. destruct (running (procs s i)) eqn:Er; [|discriminate Hs].
    destruct (in_main (procs s i)) eqn:Em; [discriminate Hs|]. injection Hs as <-. auto.
  - destruct (at_ (procs s i)) eqn:Ea; try discriminate Hs. destruct (stop_open s) eqn:Eo; [|discriminate Hs].
    injection Hs as <-. auto.
  - destruct (at_ (procs s i)) eqn:Ea; try discriminate Hs. cbv zeta in Hs.
    destruct (length (filter (fun x : nat * nat => fst x =? i) (shut s)) <? units (conf i)) eqn:El; [|discriminate Hs].
    apply Nat.ltb_lt in El. injection Hs as <-. auto.
  - destruct (at_ (procs s i)) eqn:Ea; try discriminate Hs.
    destruct (length (filter (fun x : nat * nat => fst x =? i) (shut s)) <? units (conf i)) eqn:El; [|discriminate Hs].
    apply Nat.ltb_lt in El. injection Hs as <-. auto.
  - destruct (at_ (procs s i)) eqn:Ea; try discriminate Hs.
    destruct (length (filter (fun x : nat * nat => fst x =? i) (shut s)) =? units (conf i)) eqn:El; [|discriminate Hs].
    apply Nat.eqb_eq in El. injection Hs as <-. auto.
  - destruct (at_ (procs s i)) eqn:Ea; try discriminate Hs;
      (destruct (i <? n) eqn:Ei; [|discriminate Hs]; apply Nat.ltb_lt in Ei; injection Hs as <-; auto).
  - injection Hs as <-. reflexivity.
Qed.

Ltac dj j i := destruct (Nat.eq_dec j i) as [->|?Hj];
  [rewrite ?upd_same in *|rewrite ?upd_other in * by assumption].

(** A change of one process that does not move it. *)
Lemma Inv_local h s e i p' t sh :
  Inv h s -> at_ p' = at_ (procs s i) -> set_up p' = set_up (procs s i) ->
  (idle (procs s i) -> idle p') ->
  (sh <> [] -> stop_open s = true) ->
  match e with SetupUnit _ | SetupFails _ | Crash _ => False | _ => True end ->
  Inv (e :: h) (System (upd i p' (procs s)) t (start_open s) (start_broken s) (participant s) (stop_open s) sh).
Proof.
  intros I Ea Eu Hi Hsh He.
  assert (Hu : forall j, units_set_up j (e :: h) = units_set_up j h) by (intros j; destruct e; try reflexivity; contradiction).
  assert (Hf : forall j, In (SetupFails j) (e :: h) <-> In (SetupFails j) h).
  { intros j. split; [|right; auto]. intros [->|Hx]; [contradiction|exact Hx]. }
  assert (Hc : forall j, In (Crash j) (e :: h) <-> In (Crash j) h).
  { intros j. split; [|right; auto]. intros [->|Hx]; [contradiction|exact Hx]. }
  assert (Hat : forall j, at_ (upd i p' (procs s) j) = at_ (procs s j)) by (intros j; dj j i; auto).
  assert (Hst : forall j, set_up (upd i p' (procs s) j) = set_up (procs s j)) by (intros j; dj j i; auto).
  assert (Hid : forall j, idle (procs s j) -> idle (upd i p' (procs s) j)) by (intros j; dj j i; auto).
  split; cbn [procs start_open start_broken participant stop_open shut]; unfold early, late in *; intros *;
    rewrite ?Hat, ?Hst, ?Hu, ?Hf, ?Hc.
  - apply (iv_out _ _ I).
  - apply (iv_setup _ _ I).
  - apply (iv_start _ _ I).
  - intros Ho. destruct (iv_open _ _ I Ho) as (H1 & H2 & H3). split; [exact H1|]. split; [exact H2|].
    intros j Hj. rewrite Hat, Hst. auto.
  - apply (iv_run _ _ I).
  - intros Hn. apply (iv_active _ _ I i0). intros Hx. apply Hn. apply Hid. exact Hx.
  - intros Hx. apply Hid. apply (iv_early _ _ I). exact Hx.
  - apply (iv_broken _ _ I).
  - intros Hb. destruct (iv_fails _ _ I Hb) as [j Hj]. exists j. apply Hf. exact Hj.
  - intros Ho j Hj. rewrite Hat. apply (iv_stop _ _ I Ho j Hj).
  - apply (iv_shutdown _ _ I).
  - exact Hsh.
  - apply (iv_gone _ _ I).
  - apply (iv_ended _ _ I).
  - intros Hn Hp Hb Ha. apply (iv_starts _ _ I Hn Hp Hb). intros j Hj. rewrite <- Hat. auto.
  - intros Hn Ha. apply (iv_stops _ _ I Hn). intros j Hj. rewrite <- Hat. auto.
Qed.

(** Coming to the stop barrier. *)
Lemma Inv_stop h s e i p' t :
  Inv h s -> i < n -> at_ (procs s i) = AtStart \/ at_ (procs s i) = Run -> set_up p' = set_up (procs s i) ->
  (start_open s = false -> idle p') -> (start_open s = true \/ start_broken s = true) ->
  match e with SetupUnit _ | SetupFails _ | Crash _ => False | _ => True end ->
  let f := upd i (set_at AtStop p') (procs s) in
  Inv (e :: h) (System f t (start_open s) (start_broken s) (participant s) (stop_open s || all n at_stop f) (shut s)).
Proof.
  intros I Hin Ea Eu Hi Hor He f.
  assert (Hu : forall j, units_set_up j (e :: h) = units_set_up j h) by (intros j; destruct e; try reflexivity; contradiction).
  assert (Hf : forall j, In (SetupFails j) (e :: h) <-> In (SetupFails j) h).
  { intros j. split; [|right; auto]. intros [->|Hx]; [contradiction|exact Hx]. }
  assert (Hc : forall j, In (Crash j) (e :: h) <-> In (Crash j) h).
  { intros j. split; [|right; auto]. intros [->|Hx]; [contradiction|exact Hx]. }
  assert (Hfi : f i = set_at AtStop p') by apply upd_same.
  assert (Hfj : forall j, j <> i -> f j = procs s j) by (intros j Hj; apply upd_other; exact Hj).
  assert (Hst : forall j, set_up (f j) = set_up (procs s j)).
  { intros j. destruct (Nat.eq_dec j i) as [->|Hj]; [rewrite Hfi; exact Eu|rewrite Hfj by exact Hj; reflexivity]. }
  assert (Hso : stop_open s = false).
  { destruct (stop_open s) eqn:Eo; [|reflexivity]. exfalso. pose proof (iv_stop _ _ I Eo i Hin) as Hl. unfold late in Hl.
    destruct Ea as [Ea|Ea]; rewrite Ea in Hl; destruct Hl as [Hl|[Hl|[c Hl]]]; discriminate Hl. }
  split; cbn [procs start_open start_broken participant stop_open shut]; intros *; rewrite ?Hst, ?Hu, ?Hf, ?Hc.
  - intros Hge. rewrite Hfj by lia. apply (iv_out _ _ I); exact Hge.
  - apply (iv_setup _ _ I).
  - destruct (Nat.eq_dec i0 i) as [->|Hj]; [rewrite Hfi; discriminate|rewrite Hfj by exact Hj; apply (iv_start _ _ I)].
  - intros Ho. destruct (iv_open _ _ I Ho) as (H1 & H2 & H3). split; [exact H1|]. split; [exact H2|].
    intros j Hj. rewrite Hst. split; [apply H3; exact Hj|].
    destruct (Nat.eq_dec j i) as [->|Hj']; [rewrite Hfi; discriminate|rewrite Hfj by exact Hj'; apply H3; exact Hj].
  - destruct (Nat.eq_dec i0 i) as [->|Hj]; [rewrite Hfi; discriminate|rewrite Hfj by exact Hj; apply (iv_run _ _ I)].
  - destruct (Nat.eq_dec i0 i) as [->|Hj]; [|rewrite Hfj by exact Hj; apply (iv_active _ _ I)].
    rewrite Hfi. intros Hn. destruct (start_open s); [reflexivity|]. exfalso. apply Hn. exact (Hi eq_refl).
  - destruct (Nat.eq_dec i0 i) as [->|Hj]; [|rewrite Hfj by exact Hj; apply (iv_early _ _ I)].
    rewrite Hfi. intros [Hx|Hx]; discriminate Hx.
  - apply (iv_broken _ _ I).
  - intros Hb. destruct (iv_fails _ _ I Hb) as [j Hj]. exists j. apply Hf. exact Hj.
  - rewrite Hso. cbn [orb]. intros Ho j Hj. left. apply at_stop_spec. apply (proj1 (all_spec _ _) Ho j Hj).
  - destruct (Nat.eq_dec i0 i) as [->|Hj]; [rewrite Hfi; discriminate|].
    rewrite Hfj by exact Hj. intros Hs. rewrite (iv_shutdown _ _ I _ Hs). reflexivity.
  - intros Hs. rewrite (iv_shut _ _ I Hs). reflexivity.
  - intros Hg. destruct (iv_gone _ _ I _ Hg) as (Hl & Hea & Hs). split; [exact Hl|].
    assert (Hj : i0 <> i) by (intros ->; destruct Ea as [Ea|Ea]; rewrite Ea in Hea; discriminate Hea).
    rewrite Hfj by exact Hj. split; [exact Hea|]. rewrite Hs. cbn [orb].
    destruct (all n at_stop f) eqn:Eall; [|reflexivity]. exfalso.
    pose proof (proj1 (all_spec _ _) Eall i0 Hl) as Hx. apply at_stop_spec in Hx. rewrite Hfj in Hx by exact Hj. congruence.
  - destruct (Nat.eq_dec i0 i) as [->|Hj]; [rewrite Hfi; discriminate|rewrite Hfj by exact Hj].
    intros Hc'. destruct (iv_ended _ _ I _ _ Hc') as [Hs|Hg]; [left; rewrite Hs; reflexivity|right; exact Hg].
  - intros Hn Hp Hb Ha. specialize (Ha i Hin). rewrite Hfi in Ha. discriminate Ha.
  - intros Hn Ha. apply orb_true_iff. right. apply all_spec. intros j Hj. apply at_stop_spec. auto.
Qed.

Lemma Inv_step h s e s' : Inv h s -> step s e = Some s' -> Inv (e :: h) s'.
Proof.
  intros I Hs. pose proof (step_shape _ _ _ Hs) as Hsh.
  assert (Hin : forall j, at_ (procs s j) <> Setup -> j < n).
  { intros j Hj. destruct (le_lt_dec n j) as [Hl|Hl]; [|exact Hl]. exfalso. apply Hj. apply (iv_out _ _ I j Hl). }
  assert (Hrem : forall k p, idle p -> idle (end_task k p)).
  { intros k p (H1 & H2 & H3). unfold idle, end_task. cbn. rewrite H1. auto. }
  assert (Hmain : forall b p, idle p -> idle (end_main b p)).
  { intros b p (H1 & H2 & H3). unfold idle, end_main. cbn. auto. }
  destruct e; cbn match in Hsh.
  - (* SetupUnit *)
    destruct Hsh as (Ea & Hi & Hlt & ->). set (p' := Proc _ _ _ _ _ _ _).
    assert (Hso : start_open s = false).
    { destruct (start_open s) eqn:Eo; [|reflexivity]. exfalso. destruct (iv_open _ _ I Eo) as (_ & _ & Hx). destruct (Hx i Hi). auto. }
    assert (Hat : forall j, at_ (upd i p' (procs s) j) = at_ (procs s j)) by (intros j; dj j i; auto).
    assert (Hid : forall j, idle (upd i p' (procs s) j) <-> idle (procs s j)) by (intros j; dj j i; unfold idle, p'; cbn; tauto).
    unfold set_proc. split; cbn [procs start_open start_broken participant stop_open shut];
      unfold early, late in *; intros *; rewrite ?Hat, ?Hid.
    + apply (iv_out _ _ I).
    + cbn [units_set_up]. rewrite (Nat.eqb_sym i i0). destruct (Nat.eq_dec i0 i) as [->|Hj].
      * rewrite upd_same, Nat.eqb_refl. cbn [set_up]. unfold p'. cbn. f_equal. apply (iv_setup _ _ I).
      * rewrite upd_other by exact Hj. apply Nat.eqb_neq in Hj. rewrite Hj. apply (iv_setup _ _ I).
    + intros Hx. destruct (Nat.eq_dec i0 i) as [->|Hj]; [congruence|]. rewrite upd_other by exact Hj. apply (iv_start _ _ I _ Hx).
    + congruence.
    + apply (iv_run _ _ I).
    + apply (iv_active _ _ I).
    + apply (iv_early _ _ I).
    + intros [Hx|Hx]; [discriminate Hx|]. apply (iv_broken _ _ I _ Hx).
    + intros Hb. destruct (iv_fails _ _ I Hb) as [j Hj]. exists j. right. exact Hj.
    + intros Ho j Hj. rewrite Hat. apply (iv_stop _ _ I Ho j Hj).
    + apply (iv_shutdown _ _ I).
    + apply (iv_shut _ _ I).
    + intros Hg. apply (iv_gone _ _ I). destruct Hg as [[Hx|Hx]|[Hx|Hx]]; try discriminate Hx; auto.
    + intros Hc. destruct (iv_ended _ _ I _ _ Hc) as [Hx|[Hx|Hx]]; auto; right; [left|right]; right; exact Hx.
    + intros Hn Hp Hb Ha. apply (iv_starts _ _ I Hn Hp Hb). intros j Hj. rewrite <- Hat. auto.
    + intros Hn Ha. apply (iv_stops _ _ I Hn). intros j Hj. rewrite <- Hat. auto.
  - (* SetupFails *)
    destruct Hsh as (Ea & Hi & ->).
    assert (Hso : start_open s = false).
    { destruct (start_open s) eqn:Eo; [|reflexivity]. exfalso. destruct (iv_open _ _ I Eo) as (_ & _ & Hx). destruct (Hx i Hi). auto. }
    assert (Hst : stop_open s = false).
    { destruct (stop_open s) eqn:Eo; [|reflexivity]. exfalso. pose proof (iv_stop _ _ I Eo i Hi) as Hl. unfold late in Hl.
      rewrite Ea in Hl. destruct Hl as [Hl|[Hl|[c Hl]]]; discriminate Hl. }
    assert (Hidle : idle (procs s i)) by (apply (iv_early _ _ I); left; exact Ea).
    assert (Hset : forall j, set_up (upd i (set_at (Ended false) (procs s i)) (procs s) j) = set_up (procs s j)) by (intros j; dj j i; auto).
    split; cbn [procs start_open start_broken participant stop_open shut]; unfold early, late in *; intros *;
      rewrite ?Hset.
    + intros Hge. rewrite upd_other by lia. apply (iv_out _ _ I _ Hge).
    + cbn [units_set_up]. apply (iv_setup _ _ I).
    + dj i0 i; [discriminate|apply (iv_start _ _ I)].
    + congruence.
    + dj i0 i; [discriminate|apply (iv_run _ _ I)].
    + dj i0 i; [intros Hx; exfalso; apply Hx; exact Hidle|apply (iv_active _ _ I)].
    + dj i0 i; [intros [Hx|Hx]; discriminate Hx|apply (iv_early _ _ I)].
    + reflexivity.
    + intros _. exists i. left. reflexivity.
    + congruence.
    + dj i0 i; [discriminate|apply (iv_shutdown _ _ I)].
    + apply (iv_shut _ _ I).
    + dj i0 i; [intros _; auto|]. intros Hg. apply (iv_gone _ _ I).
      destruct Hg as [[Hx|Hx]|[Hx|Hx]]; auto; [congruence|discriminate Hx].
    + dj i0 i; [intros _; right; left; left; reflexivity|]. intros Hc.
      destruct (iv_ended _ _ I _ _ Hc) as [Hx|[Hx|Hx]]; auto; right; [left|right]; right; exact Hx.
    + discriminate.
    + intros Hn Ha. specialize (Ha i Hi). rewrite upd_same in Ha. discriminate Ha.
  - (* SetupDone *)
    destruct Hsh as (Ea & Hi & Hu & ->). unfold come_to_start. cbv zeta. set (f := upd i (set_at AtStart (procs s i)) (procs s)).
    assert (Hso : start_open s = false).
    { destruct (start_open s) eqn:Eo; [|reflexivity]. exfalso. destruct (iv_open _ _ I Eo) as (_ & _ & Hx). destruct (Hx i Hi). auto. }
    assert (Hst : stop_open s = false).
    { destruct (stop_open s) eqn:Eo; [|reflexivity]. exfalso. pose proof (iv_stop _ _ I Eo i Hi) as Hl. unfold late in Hl.
      rewrite Ea in Hl. destruct Hl as [Hl|[Hl|[c Hl]]]; discriminate Hl. }
    assert (Hidle : idle (procs s i)) by (apply (iv_early _ _ I); left; exact Ea).
    assert (Hfi : f i = set_at AtStart (procs s i)) by apply upd_same.
    assert (Hfj : forall j, j <> i -> f j = procs s j) by (intros j Hj; apply upd_other; exact Hj).
    assert (Hset : forall j, set_up (f j) = set_up (procs s j)).
    { intros j. destruct (Nat.eq_dec j i) as [->|Hj]; [rewrite Hfi; reflexivity|rewrite Hfj by exact Hj; reflexivity]. }
    assert (Hats : forall j, at_ (f j) = AtStart -> set_up (f j) = units (conf j)).
    { intros j. rewrite Hset. destruct (Nat.eq_dec j i) as [->|Hj]; [auto|]. rewrite Hfj by exact Hj. apply (iv_start _ _ I). }
    assert (Hact : forall j, idle (f j) <-> idle (procs s j)).
    { intros j. destruct (Nat.eq_dec j i) as [->|Hj]; [rewrite Hfi; unfold idle; cbn; tauto|rewrite Hfj by exact Hj; tauto]. }
    rewrite Hso. cbn [orb].
    split; cbn [procs start_open start_broken participant stop_open shut]; intros *; rewrite ?Hact.
    + intros Hge. rewrite Hfj by lia. apply (iv_out _ _ I _ Hge).
    + rewrite Hset. cbn [units_set_up]. apply (iv_setup _ _ I).
    + apply Hats.
    + intros Ho. apply andb_true_iff in Ho. destruct Ho as [Ho Hb]. apply andb_true_iff in Ho. destruct Ho as [Ho Hp].
      apply negb_true_iff in Hb, Hp. split; [exact Hp|]. split; [exact Hb|]. intros j Hj.
      pose proof (proj1 (all_spec _ _) Ho j Hj) as Hx. apply at_start_spec in Hx. split; [auto|congruence].
    + intros Hx. exfalso. destruct (Nat.eq_dec i0 i) as [->|Hj]; [rewrite Hfi in Hx; discriminate Hx|].
      rewrite Hfj in Hx by exact Hj. apply (iv_run _ _ I) in Hx. congruence.
    + intros Hx. apply (iv_active _ _ I) in Hx. congruence.
    + intros Hx. destruct (Nat.eq_dec i0 i) as [->|Hj]; [exact Hidle|]. unfold early in Hx. rewrite Hfj in Hx by exact Hj.
      apply (iv_early _ _ I _ Hx).
    + intros [Hx|Hx]; [discriminate Hx|]. apply (iv_broken _ _ I _ Hx).
    + intros Hb. destruct (iv_fails _ _ I Hb) as [j Hj]. exists j. right. exact Hj.
    + congruence.
    + destruct (Nat.eq_dec i0 i) as [->|Hj]; [rewrite Hfi; discriminate|rewrite Hfj by exact Hj; apply (iv_shutdown _ _ I)].
    + apply (iv_shut _ _ I).
    + intros Hg. assert (Hg' : In (SetupFails i0) h \/ In (Crash i0) h) by (destruct Hg as [[Hx|Hx]|[Hx|Hx]]; try discriminate Hx; auto).
      destruct (iv_gone _ _ I _ Hg') as (H1 & H2 & H3). split; [exact H1|]. split; [|exact H3].
      rewrite Hfj; [exact H2|]. intros ->. congruence.
    + destruct (Nat.eq_dec i0 i) as [->|Hj]; [rewrite Hfi; discriminate|rewrite Hfj by exact Hj].
      intros Hc. destruct (iv_ended _ _ I _ _ Hc) as [Hx|[Hx|Hx]]; auto; right; [left|right]; right; exact Hx.
    + intros Hn Hp Hb Ha. rewrite Hp, Hb. cbn [negb]. rewrite !andb_true_r. apply all_spec. intros j Hj. apply at_start_spec. auto.
    + intros Hn Ha. specialize (Ha i Hi). rewrite Hfi in Ha. discriminate Ha.
  - (* ParticipantComes *)
    destruct Hsh as (Ep & Hsh).
    assert (Hso : start_open s = false).
    { destruct (start_open s) eqn:Eo; [|reflexivity]. destruct (iv_open _ _ I Eo) as (Hx & _). congruence. }
    assert (Hbase : forall o b t, (o = true -> b = false /\ forall j, j < n -> at_ (procs s j) = AtStart) ->
              (b = start_broken s) ->
              (0 < n -> b = false -> (forall i, i < n -> at_ (procs s i) = AtStart) -> o = true) ->
              Inv (ParticipantComes :: h) (System (procs s) t o b false (stop_open s) (shut s))).
    { intros o b t Ho Hb Hl. split; cbn [procs start_open start_broken participant stop_open shut units_set_up].
      - apply (iv_out _ _ I).
      - apply (iv_setup _ _ I).
      - apply (iv_start _ _ I).
      - intros Hot. destruct (Ho Hot) as [H1 H2]. split; [reflexivity|]. split; [exact H1|]. intros j Hj.
        split; [apply (iv_start _ _ I); auto|rewrite H2 by exact Hj; discriminate].
      - intros j Hj. apply (iv_run _ _ I) in Hj. congruence.
      - intros j Hj. apply (iv_active _ _ I) in Hj. congruence.
      - apply (iv_early _ _ I).
      - intros j [Hx|Hx]; [discriminate Hx|]. rewrite Hb. apply (iv_broken _ _ I _ Hx).
      - intros Hx. rewrite Hb in Hx. destruct (iv_fails _ _ I Hx) as [j Hj]. exists j. right. exact Hj.
      - apply (iv_stop _ _ I).
      - apply (iv_shutdown _ _ I).
      - apply (iv_shut _ _ I).
      - intros j Hg. apply (iv_gone _ _ I). destruct Hg as [[Hx|Hx]|[Hx|Hx]]; try discriminate Hx; auto.
      - intros j c Hc. destruct (iv_ended _ _ I _ _ Hc) as [Hx|[Hx|Hx]]; auto; right; [left|right]; right; exact Hx.
      - intros Hn _ Hb' Ha. apply Hl; auto.
      - apply (iv_stops _ _ I). }
    destruct Hsh as [[Eb ->]|[Eb ->]]; apply Hbase.
    + intros Ho. split; [reflexivity|]. intros j Hj. apply at_start_spec. apply (proj1 (all_spec _ _) Ho j Hj).
    + congruence.
    + intros Hn _ Ha. apply all_spec. intros j Hj. apply at_start_spec. auto.
    + congruence.
    + congruence.
    + congruence.
  - (* PassStart *)
    destruct Hsh as (Ea & Ho & ->). unfold set_proc. set (p' := Proc _ _ _ _ _ _ _).
    assert (Hi : i < n) by (apply Hin; congruence).
    assert (Hst : stop_open s = false).
    { destruct (stop_open s) eqn:Eo; [|reflexivity]. exfalso. pose proof (iv_stop _ _ I Eo i Hi) as Hl. unfold late in Hl.
      rewrite Ea in Hl. destruct Hl as [Hl|[Hl|[c Hl]]]; discriminate Hl. }
    assert (Hset : forall j, set_up (upd i p' (procs s) j) = set_up (procs s j)) by (intros j; dj j i; auto).
    split; cbn [procs start_open start_broken participant stop_open shut]; unfold early, late in *; intros *; rewrite ?Hset.
    + intros Hge. rewrite upd_other by lia. apply (iv_out _ _ I _ Hge).
    + cbn [units_set_up]. apply (iv_setup _ _ I).
    + dj i0 i; [discriminate|apply (iv_start _ _ I)].
    + intros _. destruct (iv_open _ _ I Ho) as (H1 & H2 & H3). split; [exact H1|]. split; [exact H2|].
      intros j Hj. rewrite Hset. split; [apply H3; exact Hj|]. dj j i; [discriminate|apply H3; exact Hj].
    + intros _. exact Ho.
    + intros _. exact Ho.
    + dj i0 i; [intros [Hx|Hx]; discriminate Hx|apply (iv_early _ _ I)].
    + intros [Hx|Hx]; [discriminate Hx|]. apply (iv_broken _ _ I _ Hx).
    + intros Hb. destruct (iv_fails _ _ I Hb) as [j Hj]. exists j. right. exact Hj.
    + congruence.
    + dj i0 i; [discriminate|apply (iv_shutdown _ _ I)].
    + apply (iv_shut _ _ I).
    + intros Hg. assert (Hg' : In (SetupFails i0) h \/ In (Crash i0) h) by (destruct Hg as [[Hx|Hx]|[Hx|Hx]]; try discriminate Hx; auto).
      destruct (iv_gone _ _ I _ Hg') as (H1 & H2 & H3). split; [exact H1|]. split; [|exact H3].
      rewrite upd_other; [exact H2|]. intros ->. congruence.
    + dj i0 i; [discriminate|]. intros Hc.
      destruct (iv_ended _ _ I _ _ Hc) as [Hx|[Hx|Hx]]; auto; right; [left|right]; right; exact Hx.
    + intros _ _ _ _. exact Ho.
    + intros Hn Ha. specialize (Ha i Hi). rewrite upd_same in Ha. discriminate Ha.
  - (* StartBroken *)
    destruct Hsh as (Ea & Hb & ->). unfold come_to_stop. cbv zeta.
    apply Inv_stop; auto; [apply Hin; congruence|]. intros _. apply (iv_early _ _ I). right. exact Ea.
  - (* ThreadEnds *)
    destruct Hsh as (k & Ek & ->). unfold set_proc. apply Inv_local; auto; [|apply (iv_shut _ _ I)].
    intros (H1 & H2 & H3). congruence.
  - (* MonitorStarts *)
    destruct Hsh as (Ea & Ho & Em & Ht & ->). unfold set_proc. apply Inv_local; auto. apply (iv_shut _ _ I).
  - destruct Hsh as (Hk & ->). unfold set_proc. apply Inv_local; auto. apply (iv_shut _ _ I).
  - destruct Hsh as (Hk & ->). unfold set_term, set_proc. cbn [procs start_open start_broken participant stop_open shut].
    apply Inv_local; auto. apply (iv_shut _ _ I).
  - destruct Hsh as (Hk & Hm & Ht & ->). unfold set_proc. apply Inv_local; auto. apply (iv_shut _ _ I).
  - destruct Hsh as (Ea & Hm & ->). unfold set_proc. apply Inv_local; auto. apply (iv_shut _ _ I).
  - destruct Hsh as (Ea & Hm & ->). unfold set_term, set_proc. cbn [procs start_open start_broken participant stop_open shut].
    apply Inv_local; auto. apply (iv_shut _ _ I).
  - (* MainRaises *)
    destruct Hsh as (Ea & Hm & ->). pose proof (iv_run _ _ I i Ea) as Ho. unfold come_to_stop. cbv zeta.
    apply Inv_stop; auto; [apply Hin; congruence|congruence].
  - destruct Hsh as (Ea & ->). pose proof (iv_run _ _ I i Ea) as Ho. unfold come_to_stop. cbv zeta.
    apply Inv_stop; auto; [apply Hin; congruence|congruence].
  - destruct Hsh as (Ea & Er & Em & ->). pose proof (iv_run _ _ I i Ea) as Ho. unfold come_to_stop. cbv zeta.
    apply Inv_stop; auto; [apply Hin; congruence|congruence].
  - (* PassStop *)
    destruct Hsh as (Ea & Ho & ->). unfold set_term, set_proc. cbn [procs start_open start_broken participant stop_open shut].
    assert (Hset : forall j, set_up (upd i (set_at Shutdown (procs s i)) (procs s) j) = set_up (procs s j)) by (intros j; dj j i; auto).
    assert (Hact : forall j, idle (upd i (set_at Shutdown (procs s i)) (procs s) j) <-> idle (procs s j)).
    { intros j. dj j i; unfold idle; cbn; tauto. }
    split; cbn [procs start_open start_broken participant stop_open shut]; unfold early, late in *; intros *; rewrite ?Hset, ?Hact.
    + intros Hge. rewrite upd_other; [apply (iv_out _ _ I _ Hge)|]. intros ->. pose proof (iv_out _ _ I _ Hge). congruence.
    + cbn [units_set_up]. apply (iv_setup _ _ I).
    + dj i0 i; [discriminate|apply (iv_start _ _ I)].
    + intros Hx. destruct (iv_open _ _ I Hx) as (H1 & H2 & H3). split; [exact H1|]. split; [exact H2|].
      intros j Hj. rewrite Hset. split; [apply H3; exact Hj|]. dj j i; [discriminate|apply H3; exact Hj].
    + dj i0 i; [discriminate|apply (iv_run _ _ I)].
    + apply (iv_active _ _ I).
    + dj i0 i; [intros [Hx|Hx]; discriminate Hx|apply (iv_early _ _ I)].
    + intros [Hx|Hx]; [discriminate Hx|]. apply (iv_broken _ _ I _ Hx).
    + intros Hb. destruct (iv_fails _ _ I Hb) as [j Hj]. exists j. right. exact Hj.
    + intros _ j Hj. dj j i; [right; left; reflexivity|apply (iv_stop _ _ I Ho j Hj)].
    + intros _. exact Ho.
    + intros _. exact Ho.
    + intros Hg. assert (Hg' : In (SetupFails i0) h \/ In (Crash i0) h) by (destruct Hg as [[Hx|Hx]|[Hx|Hx]]; try discriminate Hx; auto).
      destruct (iv_gone _ _ I _ Hg') as (H1 & H2 & H3). congruence.
    + intros _. left. exact Ho.
    + intros Hn Hp Hb Ha. assert (Hi : i < n) by (apply Hin; congruence). specialize (Ha i Hi). rewrite upd_same in Ha. discriminate Ha.
    + intros _ _. exact Ho.
  - (* ShutUnit *)
    destruct Hsh as (Ea & Hl & ->).
    assert (Hx : Inv (ShutUnit i :: h) (System (upd i (procs s i) (procs s)) (term_ev s) (start_open s) (start_broken s) (participant s)
                (stop_open s) ((i, length (filter (fun x => fst x =? i) (shut s))) :: shut s))).
    { apply Inv_local; auto. intros _. apply (iv_shutdown _ _ I _ Ea). }
    assert (Hext : forall j, upd i (procs s i) (procs s) j = procs s j) by (intros j; dj j i; reflexivity).
    destruct Hx as [J1 J2 J3 J4 J5 J6 J7 J8 J9 J10 J11 J12 J13 J14 J15 J16].
    cbn [procs start_open start_broken participant stop_open shut] in *.
    split; cbn [procs start_open start_broken participant stop_open shut]; auto.
    + intros j. specialize (J1 j). rewrite Hext in J1. exact J1.
    + intros j. specialize (J2 j). rewrite Hext in J2. exact J2.
    + intros j. specialize (J3 j). rewrite Hext in J3. exact J3.
    + intros Hx. destruct (J4 Hx) as (H1 & H2 & H3). split; [exact H1|]. split; [exact H2|].
      intros j Hj. specialize (H3 j Hj). rewrite Hext in H3. exact H3.
    + intros j. specialize (J5 j). rewrite Hext in J5. exact J5.
    + intros j. specialize (J6 j). rewrite Hext in J6. exact J6.
    + intros j. specialize (J7 j). rewrite Hext in J7. exact J7.
    + intros Hx j Hj. specialize (J10 Hx j Hj). rewrite Hext in J10. exact J10.
    + intros j. specialize (J11 j). rewrite Hext in J11. exact J11.
    + intros j. specialize (J13 j). rewrite Hext in J13. exact J13.
    + intros j. specialize (J14 j). rewrite Hext in J14. exact J14.
    + intros Hn Hp Hb Ha. apply J15; auto. intros j Hj. rewrite Hext. auto.
    + intros Hn Ha. apply J16; auto. intros j Hj. rewrite Hext. auto.
  - (* ShutFails *)
    destruct Hsh as (Ea & Hl & ->). unfold set_proc. pose proof (iv_shutdown _ _ I _ Ea) as Ho.
    assert (Hset : forall j, set_up (upd i (set_at (Ended false) (procs s i)) (procs s) j) = set_up (procs s j)) by (intros j; dj j i; auto).
    assert (Hact : forall j, idle (upd i (set_at (Ended false) (procs s i)) (procs s) j) <-> idle (procs s j)).
    { intros j. dj j i; unfold idle; cbn; tauto. }
    split; cbn [procs start_open start_broken participant stop_open shut]; unfold early, late in *; intros *; rewrite ?Hset, ?Hact.
    + intros Hge. rewrite upd_other; [apply (iv_out _ _ I _ Hge)|]. intros ->. pose proof (iv_out _ _ I _ Hge). congruence.
    + cbn [units_set_up]. apply (iv_setup _ _ I).
    + dj i0 i; [discriminate|apply (iv_start _ _ I)].
    + intros Hx. destruct (iv_open _ _ I Hx) as (H1 & H2 & H3). split; [exact H1|]. split; [exact H2|].
      intros j Hj. rewrite Hset. split; [apply H3; exact Hj|]. dj j i; [discriminate|apply H3; exact Hj].
    + dj i0 i; [discriminate|apply (iv_run _ _ I)].
    + apply (iv_active _ _ I).
    + dj i0 i; [intros [Hx|Hx]; discriminate Hx|apply (iv_early _ _ I)].
    + intros [Hx|Hx]; [discriminate Hx|]. apply (iv_broken _ _ I _ Hx).
    + intros Hb. destruct (iv_fails _ _ I Hb) as [j Hj]. exists j. right. exact Hj.
    + intros _ j Hj. dj j i; [right; right; exists false; reflexivity|apply (iv_stop _ _ I Ho j Hj)].
    + intros _. exact Ho.
    + intros _. exact Ho.
    + intros Hg. assert (Hg' : In (SetupFails i0) h \/ In (Crash i0) h) by (destruct Hg as [[Hx|Hx]|[Hx|Hx]]; try discriminate Hx; auto).
      destruct (iv_gone _ _ I _ Hg') as (H1 & H2 & H3). congruence.
    + intros _. left. exact Ho.
    + intros Hn Hp Hb Ha. assert (Hi : i < n) by (apply Hin; congruence). specialize (Ha i Hi). rewrite upd_same in Ha. discriminate Ha.
    + intros _ _. exact Ho.
  - (* Finish *)
    destruct Hsh as (Ea & Hl & ->). unfold set_proc. pose proof (iv_shutdown _ _ I _ Ea) as Ho. set (c0 := negb _).
    assert (Hset : forall j, set_up (upd i (set_at (Ended c0) (procs s i)) (procs s) j) = set_up (procs s j)) by (intros j; dj j i; auto).
    assert (Hact : forall j, idle (upd i (set_at (Ended c0) (procs s i)) (procs s) j) <-> idle (procs s j)).
    { intros j. dj j i; unfold idle; cbn; tauto. }
    split; cbn [procs start_open start_broken participant stop_open shut]; unfold early, late in *; intros *; rewrite ?Hset, ?Hact.
    + intros Hge. rewrite upd_other; [apply (iv_out _ _ I _ Hge)|]. intros ->. pose proof (iv_out _ _ I _ Hge). congruence.
    + cbn [units_set_up]. apply (iv_setup _ _ I).
    + dj i0 i; [discriminate|apply (iv_start _ _ I)].
    + intros Hx. destruct (iv_open _ _ I Hx) as (H1 & H2 & H3). split; [exact H1|]. split; [exact H2|].
      intros j Hj. rewrite Hset. split; [apply H3; exact Hj|]. dj j i; [discriminate|apply H3; exact Hj].
    + dj i0 i; [discriminate|apply (iv_run _ _ I)].
    + apply (iv_active _ _ I).
    + dj i0 i; [intros [Hx|Hx]; discriminate Hx|apply (iv_early _ _ I)].
    + intros [Hx|Hx]; [discriminate Hx|]. apply (iv_broken _ _ I _ Hx).
    + intros Hb. destruct (iv_fails _ _ I Hb) as [j Hj]. exists j. right. exact Hj.
    + intros _ j Hj. dj j i; [right; right; exists c0; reflexivity|apply (iv_stop _ _ I Ho j Hj)].
    + intros _. exact Ho.
    + intros _. exact Ho.
    + intros Hg. assert (Hg' : In (SetupFails i0) h \/ In (Crash i0) h) by (destruct Hg as [[Hx|Hx]|[Hx|Hx]]; try discriminate Hx; auto).
      destruct (iv_gone _ _ I _ Hg') as (H1 & H2 & H3). congruence.
    + intros _. left. exact Ho.
    + intros Hn Hp Hb Ha. assert (Hi : i < n) by (apply Hin; congruence). specialize (Ha i Hi). rewrite upd_same in Ha. discriminate Ha.
    + intros _ _. exact Ho.
  - (* Crash *)
    destruct Hsh as (Ea & Hi & ->). unfold set_proc. set (p' := Proc _ _ _ _ _ _ _).
    assert (Hst : stop_open s = false).
    { destruct (stop_open s) eqn:Eo; [|reflexivity]. exfalso. pose proof (iv_stop _ _ I Eo i Hi) as Hl. unfold late in Hl.
      destruct Ea as [Ea|Ea]; rewrite Ea in Hl; destruct Hl as [Hl|[Hl|[c Hl]]]; discriminate Hl. }
    assert (Hset : forall j, set_up (upd i p' (procs s) j) = set_up (procs s j)) by (intros j; dj j i; auto).
    split; cbn [procs start_open start_broken participant stop_open shut]; unfold early, late in *; intros *; rewrite ?Hset.
    + intros Hge. rewrite upd_other by lia. apply (iv_out _ _ I _ Hge).
    + cbn [units_set_up]. apply (iv_setup _ _ I).
    + dj i0 i; [discriminate|apply (iv_start _ _ I)].
    + intros Hx. destruct (iv_open _ _ I Hx) as (H1 & H2 & H3). split; [exact H1|]. split; [exact H2|].
      intros j Hj. rewrite Hset. split; [apply H3; exact Hj|]. dj j i; [discriminate|apply H3; exact Hj].
    + dj i0 i; [discriminate|apply (iv_run _ _ I)].
    + dj i0 i; [intros Hx; exfalso; apply Hx; repeat split|apply (iv_active _ _ I)].
    + dj i0 i; [intros [Hx|Hx]; discriminate Hx|apply (iv_early _ _ I)].
    + intros [Hx|Hx]; [discriminate Hx|]. apply (iv_broken _ _ I _ Hx).
    + intros Hb. destruct (iv_fails _ _ I Hb) as [j Hj]. exists j. right. exact Hj.
    + congruence.
    + dj i0 i; [discriminate|apply (iv_shutdown _ _ I)].
    + apply (iv_shut _ _ I).
    + dj i0 i; [intros _; auto|]. intros Hg. apply (iv_gone _ _ I).
      destruct Hg as [[Hx|Hx]|[Hx|Hx]]; auto; [discriminate Hx|congruence].
    + dj i0 i; [intros _; right; right; left; reflexivity|]. intros Hc.
      destruct (iv_ended _ _ I _ _ Hc) as [Hx|[Hx|Hx]]; auto; right; [left|right]; right; exact Hx.
    + intros Hn Hp Hb Ha. specialize (Ha i Hi). rewrite upd_same in Ha. discriminate Ha.
    + intros Hn Ha. specialize (Ha i Hi). rewrite upd_same in Ha. discriminate Ha.
  - (* SetTerm *)
    subst s'. unfold set_term.
    destruct I as [J1 J2 J3 J4 J5 J6 J7 J8 J9 J10 J11 J12 J13 J14 J15 J16].
    split; cbn [procs start_open start_broken participant stop_open shut units_set_up]; auto.
    + intros j [Hx|Hx]; [discriminate Hx|eauto].
    + intros Hb. destruct (J9 Hb) as [j Hj]. exists j. right. exact Hj.
    + intros j Hg. apply J13. destruct Hg as [[Hx|Hx]|[Hx|Hx]]; try discriminate Hx; auto.
    + intros j c Hc. destruct (J14 _ _ Hc) as [Hx|[Hx|Hx]]; auto; right; [left|right]; right; exact Hx.
Qed.

Lemma after_Inv h s : after h s -> Inv h s.
Proof. induction 1; [apply Inv_init|eapply Inv_step; eauto]. Qed.

(** Nobody is at work after coming to the stop barrier, unless something has gone wrong. *)
Definition at_rest (p : proc) : Prop := running p = [] /\ in_main p = false.

Lemma late_at_rest h s : after h s -> Forall calm_event h -> forall i, late (procs s i) -> at_rest (procs s i).
Proof.
  induction 1 as [|h s e s' Ha IH Hs]; intros Hc.
  - intros i Hl. repeat split.
  - apply Forall_cons_iff in Hc. destruct Hc as [Hce Hc]. specialize (IH Hc).
    pose proof (after_Inv _ _ Ha) as I. pose proof (step_shape _ _ _ Hs) as Hsh.
    assert (Hloc : forall i p', (late (procs s i) -> at_rest (procs s i) -> at_rest p') -> at_ p' = at_ (procs s i) ->
                   forall j, late (upd i p' (procs s) j) -> at_rest (upd i p' (procs s) j)).
    { intros i p' Hr Ea j. dj j i; [|apply IH]. unfold late. rewrite Ea. intros Hl. apply Hr; [exact Hl|apply IH; exact Hl]. }
    assert (Hmov : forall i p', at_rest p' -> forall j, late (upd i p' (procs s) j) -> at_rest (upd i p' (procs s) j)).
    { intros i p' Hr j. dj j i; [auto|apply IH]. }
    assert (Hnl : forall i p', at_ p' = Setup \/ at_ p' = AtStart \/ at_ p' = Run ->
                  forall j, late (upd i p' (procs s) j) -> at_rest (upd i p' (procs s) j)).
    { intros i p' Hr j. dj j i; [|apply IH]. unfold late. intros Hl. exfalso.
      destruct Hl as [Hl|[Hl|[c Hl]]]; rewrite Hl in Hr; destruct Hr as [Hr|[Hr|Hr]]; discriminate Hr. }
    assert (Hrem : forall i k, late (procs s i) -> at_rest (procs s i) -> at_rest (end_task k (procs s i))).
    { intros i k _ (H1 & H2). unfold at_rest, end_task. cbn. rewrite H1. auto. }
    assert (Hidle : forall i, idle (procs s i) -> at_rest (procs s i)) by (intros i (H1 & _ & H3); split; assumption).
    destruct e; cbn match in Hsh; try contradiction Hce.
    + destruct Hsh as (Ea & Hi & Hlt & ->). apply Hnl. auto.
    + destruct Hsh as (Ea & Hi & ->). apply Hmov. apply Hidle. apply (iv_early _ _ I). left. exact Ea.
    + destruct Hsh as (Ea & Hi & Hu & ->). unfold come_to_start. cbn [procs]. apply Hnl. auto.
    + destruct Hsh as (Ep & [[Eb ->]|[Eb ->]]); exact IH.
    + destruct Hsh as (Ea & Ho & ->). apply Hnl. auto.
    + destruct Hsh as (Ea & Hb & ->). unfold come_to_stop. cbn [procs]. apply Hmov. apply Hidle. apply (iv_early _ _ I). right. exact Ea.
    + destruct Hsh as (k & Ek & ->). apply Hloc; auto.
    + destruct Hsh as (Ea & Ho & Em & Ht & ->). apply Hloc; auto.
    + destruct Hsh as (Hk & ->). apply Hloc; auto.
    + destruct Hsh as (Hk & ->). cbn [procs set_term set_proc]. apply Hloc; auto.
    + destruct Hsh as (Hk & Hm & Ht & ->). apply Hloc; auto.
    + destruct Hsh as (Ea & Hm & ->). apply Hnl. auto.
    + destruct Hsh as (Ea & Hm & ->). cbn [procs set_term set_proc]. apply Hnl. auto.
    + destruct Hsh as (Ea & Er & Em & ->). unfold come_to_stop. cbn [procs]. apply Hmov. split; assumption.
    + destruct Hsh as (Ea & Ho & ->). cbn [procs set_term set_proc]. apply Hmov. apply (IH i). left. exact Ea.
    + destruct Hsh as (Ea & Hl & ->). exact IH.
    + destruct Hsh as (Ea & Hl & ->). apply Hmov. apply (IH i). right. left. exact Ea.
    + destruct Hsh as (Ea & Hl & ->). apply Hmov. apply (IH i). right. left. exact Ea.
    + subst s'. exact IH.
Qed.

(** The units of a process are shut down one after the other. *)
Definition shut_of (s : system) (i : nat) : list (nat * nat) := filter (fun x => fst x =? i) (shut s).

Lemma shut_list h s : after h s ->
  (forall i, shut_of s i = rev (map (pair i) (seq 0 (length (shut_of s i)))) /\ length (shut_of s i) <= units (conf i)) /\
  (forall i, n <= i -> shut_of s i = []) /\
  (forall i, at_ (procs s i) = Ended true -> length (shut_of s i) = units (conf i)).
Proof.
  induction 1 as [|h s e s' Ha IH Hs].
  - split; [intros i; split; [reflexivity|apply Nat.le_0_l]|]. split; [reflexivity|]. discriminate.
  - destruct IH as (IH1 & IH2 & IH3). pose proof (after_Inv _ _ Ha) as I. pose proof (step_shape _ _ _ Hs) as Hsh.
    assert (Hmain : (shut s' = shut s -> (forall i, at_ (procs s' i) = Ended true -> at_ (procs s i) = Ended true \/
                       length (shut_of s i) = units (conf i)) ->
                     (forall i, shut_of s' i = rev (map (pair i) (seq 0 (length (shut_of s' i)))) /\ length (shut_of s' i) <= units (conf i)) /\
                     (forall i, n <= i -> shut_of s' i = []) /\
                     (forall i, at_ (procs s' i) = Ended true -> length (shut_of s' i) = units (conf i)))).
    { intros E1 E2. unfold shut_of in *. rewrite E1. split; [exact IH1|]. split; [exact IH2|].
      intros i Hi. destruct (E2 i Hi) as [Hx|Hx]; [apply IH3; exact Hx|exact Hx]. }
    assert (Hone : forall i p', at_ p' <> Ended true \/ at_ p' = at_ (procs s i) -> forall j, at_ (upd i p' (procs s) j) = Ended true ->
                   at_ (procs s j) = Ended true \/ length (shut_of s j) = units (conf j)).
    { intros i p' Hp j. dj j i; [|auto]. intros Hx. left. destruct Hp as [Hp|Hp]; congruence. }
    destruct e; cbn match in Hsh.
    + destruct Hsh as (Ea & Hi & Hlt & ->). apply Hmain; [reflexivity|]. apply Hone. left. discriminate.
    + destruct Hsh as (Ea & Hi & ->). apply Hmain; [reflexivity|]. apply Hone. left. discriminate.
    + destruct Hsh as (Ea & Hi & Hu & ->). unfold come_to_start in *. apply Hmain; [reflexivity|]. apply Hone. left. discriminate.
    + destruct Hsh as (Ep & [[Eb ->]|[Eb ->]]); (apply Hmain; [reflexivity|]; auto).
    + destruct Hsh as (Ea & Ho & ->). apply Hmain; [reflexivity|]. apply Hone. left. discriminate.
    + destruct Hsh as (Ea & Hb & ->). unfold come_to_stop in *. apply Hmain; [reflexivity|]. apply Hone. left. discriminate.
    + destruct Hsh as (k & Ek & ->). apply Hmain; [reflexivity|]. apply Hone. auto.
    + destruct Hsh as (Ea & Ho & Em & Ht & ->). apply Hmain; [reflexivity|]. apply Hone. auto.
    + destruct Hsh as (Hk & ->). apply Hmain; [reflexivity|]. apply Hone. auto.
    + destruct Hsh as (Hk & ->). apply Hmain; [reflexivity|]. apply Hone. auto.
    + destruct Hsh as (Hk & Hm & Ht & ->). apply Hmain; [reflexivity|]. apply Hone. auto.
    + destruct Hsh as (Ea & Hm & ->). apply Hmain; [reflexivity|]. apply Hone. auto.
    + destruct Hsh as (Ea & Hm & ->). apply Hmain; [reflexivity|]. apply Hone. auto.
    + destruct Hsh as (Ea & Hm & ->). apply Hmain; [reflexivity|]. apply Hone. left. discriminate.
    + destruct Hsh as (Ea & ->). apply Hmain; [reflexivity|]. apply Hone. left. discriminate.
    + destruct Hsh as (Ea & Er & Em & ->). apply Hmain; [reflexivity|]. apply Hone. left. discriminate.
    + destruct Hsh as (Ea & Ho & ->). apply Hmain; [reflexivity|]. apply Hone. left. discriminate.
    + destruct Hsh as (Ea & Hl & ->). fold (shut_of s i) in Hl. clear Hmain.
      assert (Hsame : forall j, shut_of (System (procs s) (term_ev s) (start_open s) (start_broken s) (participant s) (stop_open s)
                ((i, length (filter (fun x => fst x =? i) (shut s))) :: shut s)) j
              = if i =? j then (i, length (shut_of s i)) :: shut_of s j else shut_of s j).
      { intros j. unfold shut_of. cbn [shut filter fst]. reflexivity. }
      split; [|split].
      * intros j. rewrite Hsame. destruct (i =? j) eqn:E.
        -- apply Nat.eqb_eq in E. subst j. cbn [length]. split; [|lia].
           rewrite seq_S, map_app, rev_app_distr. cbn. f_equal. apply IH1.
        -- apply IH1.
      * intros j Hj. rewrite Hsame. destruct (i =? j) eqn:E; [|apply IH2; exact Hj].
        apply Nat.eqb_eq in E. subst j. pose proof (iv_out _ _ I i Hj). congruence.
      * cbn [procs]. intros j Hj. rewrite Hsame. destruct (i =? j) eqn:E; [|apply IH3; exact Hj].
        apply Nat.eqb_eq in E. subst j. congruence.
    + destruct Hsh as (Ea & Hl & ->). apply Hmain; [reflexivity|]. apply Hone. left. discriminate.
    + destruct Hsh as (Ea & Hl & ->). apply Hmain; [reflexivity|]. cbn [procs set_proc]. intros j. dj j i; [|auto]. intros _. right. exact Hl.
    + destruct Hsh as (Ea & Hi & ->). apply Hmain; [reflexivity|]. apply Hone. left. discriminate.
    + subst s'. apply Hmain; [reflexivity|]. auto.
Qed.

Lemma NoDup_by_first (l : list (nat * nat)) :
  (forall i, NoDup (filter (fun x => fst x =? i) l)) -> NoDup l.
Proof.
  induction l as [|[i k] l IH]; intros Hf; [constructor|]. constructor.
  - intros Hin. specialize (Hf i). cbn in Hf. rewrite Nat.eqb_refl in Hf. inversion Hf as [|x y Hx Hy]; subst.
    apply Hx. apply filter_In. split; [exact Hin|apply Nat.eqb_refl].
  - apply IH. intros j. specialize (Hf j). cbn in Hf. destruct (i =? j); [inversion Hf; assumption|exact Hf].
Qed.

Lemma shut_NoDup h s : after h s -> NoDup (shut s).
Proof.
  intros Ha. apply NoDup_by_first. intros i. fold (shut_of s i).
  destruct (proj1 (shut_list _ _ Ha) i) as [E _]. rewrite E. apply NoDup_rev.
  apply Injective_map_NoDup; [|apply seq_NoDup]. intros x y Hxy. congruence.
Qed.

Lemma In_shut h s i k : after h s -> In (i, k) (shut s) <-> k < length (shut_of s i).
Proof.
  intros Ha. destruct (proj1 (shut_list _ _ Ha) i) as [E _].
  assert (Hx : In (i, k) (shut s) <-> In (i, k) (shut_of s i)).
  { unfold shut_of. rewrite filter_In. cbn [fst]. rewrite Nat.eqb_refl. tauto. }
  rewrite Hx, E at 1. rewrite <- in_rev, in_map_iff. split.
  - intros (x & Ex & Hin). injection Ex as ->. apply in_seq in Hin. lia.
  - intros Hl. exists k. split; [reflexivity|]. apply in_seq. lia.
Qed.

(** In a good history nothing fails. *)

Lemma good_Inv h s : after h s -> Forall good_event h ->
  start_broken s = false /\ (forall i, failed (procs s i) = false) /\ (forall i c, at_ (procs s i) = Ended c -> c = true) /\
  (forall i, in_threads (procs s i) <= threads (conf i)).
Proof.
  intros Ha Hg. pose proof (after_Inv _ _ Ha) as I.
  assert (Hb : start_broken s = false).
  { destruct (start_broken s) eqn:Eb; [|reflexivity]. destruct (iv_fails _ _ I Eb) as [i Hi].
    rewrite Forall_forall in Hg. destruct (Hg _ Hi). }
  split; [exact Hb|]. clear Hb I. induction Ha as [|h s e s' Ha IH Hs].
  - split; [reflexivity|]. split; [discriminate|]. intros i. apply Nat.le_0_l.
  - apply Forall_cons_iff in Hg. destruct Hg as [Hge Hg]. specialize (IH Hg). destruct IH as (IH1 & IH2 & IH3).
    pose proof (step_shape _ _ _ Hs) as Hsh.
    assert (Hone : forall i p', failed p' = failed (procs s i) -> (forall c, at_ p' = Ended c -> at_ (procs s i) = Ended c \/ c = true) ->
                   in_threads p' <= threads (conf i) ->
                   (forall j, failed (upd i p' (procs s) j) = false) /\ (forall j c, at_ (upd i p' (procs s) j) = Ended c -> c = true) /\
                   (forall j, in_threads (upd i p' (procs s) j) <= threads (conf j))).
    { intros i p' E1 E2 E3. split; [|split]; intros j.
      - dj j i; [congruence|auto].
      - intros c. dj j i; [|apply IH2]. intros Hc. destruct (E2 c Hc) as [Hx|Hx]; [eapply IH2; eauto|exact Hx].
      - dj j i; auto. }
    destruct e; cbn match in Hsh; try contradiction Hge.
    + destruct Hsh as (Ea & Hi & Hlt & ->). apply Hone; auto; try discriminate; apply IH3.
    + destruct Hsh as (Ea & Hi & Hu & ->). unfold come_to_start. cbn [procs]. apply Hone; auto; try discriminate; apply IH3.
    + destruct Hsh as (Ep & [[Eb ->]|[Eb ->]]); auto.
    + destruct Hsh as (Ea & Ho & ->). apply Hone; auto; discriminate.
    + destruct Hsh as (Ea & Hb & ->). unfold come_to_stop. cbn [procs]. apply Hone; auto; try discriminate; apply IH3.
    + destruct Hsh as (k & Ek & ->). apply Hone; auto. cbn. specialize (IH3 i). lia.
    + destruct Hsh as (Ea & Ho & Em & Ht & ->). apply Hone; auto; apply IH3.
    + destruct Hsh as (Hk & ->). apply Hone; auto; apply IH3.
    + destruct Hsh as (Hk & ->). cbn [procs set_term set_proc]. apply Hone; auto; apply IH3.
    + destruct Hsh as (Hk & Hm & Ht & ->). apply Hone; auto; apply IH3.
    + destruct Hsh as (Ea & Hm & ->). apply Hone; auto; apply IH3.
    + destruct Hsh as (Ea & Hm & ->). cbn [procs set_term set_proc]. apply Hone; auto; apply IH3.
    + destruct Hsh as (Ea & Er & Em & ->). unfold come_to_stop. cbn [procs]. apply Hone; auto; try discriminate; apply IH3.
    + destruct Hsh as (Ea & Ho & ->). cbn [procs set_term set_proc]. apply Hone; auto; try discriminate; apply IH3.
    + destruct Hsh as (Ea & Hl & ->). auto.
    + destruct Hsh as (Ea & Hl & ->). cbn [procs set_proc]. apply Hone; auto.
      * cbn. rewrite IH1. cbn. intros c Hc. right. congruence.
      * apply IH3.
    + subst s'. auto.
Qed.

(** Every step but setting the event again brings the end nearer. *)
Definition rank (i : nat) (c : pc) : nat :=
  match c with
  | Setup => 5 + tasks (conf i) + threads (conf i) + 1
  | AtStart => 4 + tasks (conf i) + threads (conf i) + 1
  | Run => 3 | AtStop => 2 | Shutdown => 1 | Ended _ => 0
  end.
Definition left_of (s : system) (i : nat) : nat :=
  rank i (at_ (procs s i)) + length (running (procs s i)) + in_threads (procs s i) + Nat.b2n (in_main (procs s i)) +
  Nat.b2n (negb (monitor (procs s i))) + (units (conf i) - set_up (procs s i)) + (units (conf i) - length (shut_of s i)).
Definition measure (s : system) : nat := Nat.b2n (participant s) + list_sum (map (left_of s) (seq 0 n)).

Lemma list_sum_lt (f g : nat -> nat) (i : nat) : forall l, (forall j, In j l -> j <> i -> f j = g j) -> NoDup l -> In i l -> f i < g i ->
  list_sum (map f l) < list_sum (map g l).
Proof.
  induction l as [|x l IH]; intros Hj Hnd Hin Hlt; [destruct Hin|]. cbn [map list_sum fold_right].
  change (fold_right Nat.add 0 (map f l)) with (list_sum (map f l)).
  change (fold_right Nat.add 0 (map g l)) with (list_sum (map g l)).
  inversion Hnd as [|? ? Hx Hnd']; subst. destruct Hin as [->|Hin].
  - assert (E : list_sum (map f l) = list_sum (map g l)).
    { f_equal. apply map_ext_in. intros j Hjl. apply Hj; [right; exact Hjl|]. intros ->. contradiction. }
    lia.
  - assert (Hxi : x <> i) by (intros ->; contradiction). rewrite (Hj x (or_introl eq_refl) Hxi).
    enough (list_sum (map f l) < list_sum (map g l)) by lia. apply IH; auto. intros j Hjl. apply Hj. right. exact Hjl.
Qed.

Lemma measure_one s s' i : i < n -> participant s' = participant s -> (forall j, j <> i -> left_of s' j = left_of s j) ->
  left_of s' i < left_of s i -> measure s' < measure s.
Proof.
  intros Hi Ep Hj Hlt. unfold measure. rewrite Ep. apply Nat.add_lt_mono_l.
  apply (list_sum_lt _ _ i); auto; [apply seq_NoDup|apply in_seq; lia].
Qed.

Lemma remove_shorter k l : In k l -> length (remove Nat.eq_dec k l) < length l.
Proof. apply remove_length_lt. Qed.

Lemma measure_step h s e s' : after h s -> step s e = Some s' -> e <> SetTerm -> calm_event e -> measure s' < measure s.
Proof.
  intros Ha Hs Hne Hc. pose proof (after_Inv _ _ Ha) as I. pose proof (step_shape _ _ _ Hs) as Hsh.
  assert (Hin : forall j, at_ (procs s j) <> Setup -> j < n).
  { intros j Hj. destruct (le_lt_dec n j) as [Hl|Hl]; [|exact Hl]. exfalso. apply Hj. apply (iv_out _ _ I j Hl). }
  assert (Hin' : forall j, ~ idle (procs s j) -> j < n).
  { intros j Hj. destruct (le_lt_dec n j) as [Hl|Hl]; [|exact Hl]. exfalso. apply Hj. apply (iv_early _ _ I j). left. apply (iv_out _ _ I j Hl). }
  assert (Hone : forall i p' t o b st, i < n ->
     rank i (at_ p') + length (running p') + in_threads p' + Nat.b2n (in_main p') + Nat.b2n (negb (monitor p')) + (units (conf i) - set_up p') <
     rank i (at_ (procs s i)) + length (running (procs s i)) + in_threads (procs s i) + Nat.b2n (in_main (procs s i)) +
     Nat.b2n (negb (monitor (procs s i))) + (units (conf i) - set_up (procs s i)) ->
     measure (System (upd i p' (procs s)) t o b (participant s) st (shut s)) < measure s).
  { intros i p' t o b st Hi Hlt. apply (measure_one _ _ i Hi); [reflexivity| |].
    - intros j Hj. unfold left_of, shut_of. cbn [procs shut]. rewrite upd_other by exact Hj. reflexivity.
    - unfold left_of, shut_of. cbn [procs shut]. rewrite upd_same. lia. }
  assert (Htask : forall i k, In k (running (procs s i)) -> i < n).
  { intros i k Hk. apply Hin'. intros (Hx & _). rewrite Hx in Hk. destruct Hk. }
  destruct e; cbn match in Hsh; try contradiction Hc.
  - destruct Hsh as (Ea & Hi & Hlt & ->). unfold set_proc. apply Hone; [exact Hi|]. cbn. rewrite Ea. cbn. lia.
  - destruct Hsh as (Ea & Hi & ->). apply Hone; [exact Hi|]. cbn. rewrite Ea. cbn. lia.
  - destruct Hsh as (Ea & Hi & Hu & ->). unfold come_to_start. cbv zeta. apply Hone; [exact Hi|]. cbn. rewrite Ea. cbn. lia.
  - destruct Hsh as (Ep & [[Eb ->]|[Eb ->]]); unfold measure, left_of, shut_of; cbn [participant procs shut]; rewrite Ep; cbn; lia.
  - destruct Hsh as (Ea & Ho & ->). unfold set_proc. apply Hone; [apply Hin; congruence|]. cbn. rewrite Ea, seq_length. cbn.
    destruct (has_main (conf i)); cbn; lia.
  - destruct Hsh as (Ea & Hb & ->). unfold come_to_stop. cbv zeta. apply Hone; [apply Hin; congruence|]. cbn. rewrite Ea. cbn. lia.
  - destruct Hsh as (k & Ek & ->). unfold set_proc. apply Hone; [apply Hin'; intros (_ & Hx & _); congruence|]. cbn. rewrite Ek. lia.
  - destruct Hsh as (Ea & Ho & Em & Ht & ->). unfold set_proc. apply Hone; [apply Hin; intros Hx; rewrite Hx in Ea; destruct Ea as [Ea|[Ea|Ea]]; discriminate Ea|].
    cbn. rewrite Em. cbn. lia.
  - destruct Hsh as (Hk & ->). unfold set_proc. apply Hone; [eapply Htask; eauto|]. cbn. pose proof (remove_shorter _ _ Hk). lia.
  - destruct Hsh as (Hk & ->). unfold set_term, set_proc. cbn [procs start_open start_broken participant stop_open shut].
    apply Hone; [eapply Htask; eauto|]. cbn. pose proof (remove_shorter _ _ Hk). lia.
  - destruct Hsh as (Hk & Hm & Ht & ->). unfold set_proc. apply Hone; [eapply Htask; eauto|]. cbn. pose proof (remove_shorter _ _ Hk). lia.
  - destruct Hsh as (Ea & Hm & ->). unfold set_proc. apply Hone; [apply Hin; congruence|]. cbn. rewrite Hm. cbn. lia.
  - destruct Hsh as (Ea & Hm & ->). unfold set_term, set_proc. cbn [procs start_open start_broken participant stop_open shut].
    apply Hone; [apply Hin; congruence|]. cbn. rewrite Hm. cbn. lia.
  - destruct Hsh as (Ea & Er & Em & ->). unfold come_to_stop. cbv zeta. apply Hone; [apply Hin; congruence|]. cbn. rewrite Ea. cbn. lia.
  - destruct Hsh as (Ea & Ho & ->). unfold set_term, set_proc. cbn [procs start_open start_broken participant stop_open shut].
    apply Hone; [apply Hin; congruence|]. cbn. rewrite Ea. cbn. lia.
  - destruct Hsh as (Ea & Hl & ->). apply (measure_one _ _ i); [apply Hin; congruence|reflexivity| |].
    + intros j Hj. unfold left_of, shut_of. cbn [procs shut filter fst].
      destruct (i =? j) eqn:E; [apply Nat.eqb_eq in E; congruence|reflexivity].
    + unfold left_of, shut_of. cbn [procs shut filter fst]. rewrite Nat.eqb_refl. cbn [length]. lia.
  - destruct Hsh as (Ea & Hl & ->). unfold set_proc. apply Hone; [apply Hin; congruence|]. cbn. rewrite Ea. cbn. lia.
  - destruct Hsh as (Ea & Hl & ->). unfold set_proc. apply Hone; [apply Hin; congruence|]. cbn. rewrite Ea. cbn. lia.
  - congruence.
Qed.

Lemma after_det h s : after h s -> forall s', after h s' -> s' = s.
Proof.
  induction 1 as [|h s e s1 Ha IH Hs]; intros s' Ha'; inversion Ha' as [|h0 s0 e0 s2 Ha0 Hs0]; subst; [reflexivity|].
  pose proof (IH _ Ha0). congruence.
Qed.

Lemma measure_after h s : after h s -> forall h' s', after (h' ++ h) s' -> Forall calm_event h' -> ~ In SetTerm h' ->
  measure s' + length h' <= measure s.
Proof.
  intros Ha. induction h' as [|e h' IH]; intros s' Ha' Hc Hn.
  - cbn in *. rewrite (after_det _ _ Ha _ Ha'). lia.
  - cbn [app] in Ha'. inversion Ha' as [|h0 s0 e0 s2 Ha0 Hs0]; subst.
    apply Forall_cons_iff in Hc. destruct Hc as [Hce Hc].
    assert (Hm : measure s' < measure s0).
    { eapply measure_step; eauto. intros ->. apply Hn. left. reflexivity. }
    assert (Hl : measure s0 + length h' <= measure s) by (apply IH; auto; intros Hx; apply Hn; right; exact Hx).
    cbn [length]. lia.
Qed.

End Proofs.
