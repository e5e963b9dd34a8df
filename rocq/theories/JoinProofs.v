(* Invariants of JoinModel.v. *)

From Coq Require Import String List Arith Bool Lia Relations.
From Verif Require Import Dict DagModel DagSpec DagProofs JoinModel JoinSpec.
Import ListNotations.

(* ---- what the steps do ---- *)

Lemma get_map {V} (f : V -> V) (s : nat) (l : list (nat * V)) :
  get s (map (fun e => (fst e, f (snd e))) l) = option_map f (get s l).
Proof. induction l as [|[k v] l IH]; cbn; [reflexivity|]. destruct (dec s k); [reflexivity|exact IH]. Qed.

Lemma set_sync_job s w c todo cur : w_job (set_sync s w) = Some (JNotify c todo cur) ->
  (w_job w = Some (JNotify c todo cur) /\ cur <> Some s) \/ (w_job w = Some (JNotify c todo (Some s)) /\ cur = None).
Proof.
  unfold set_sync. destruct (w_job w) as [[p|c' todo' [s'|]]|] eqn:E; cbn; try (rewrite E; intros H; left; split; [exact H|congruence]).
  destruct (dec s s') as [<-|N]; cbn.
  - intros H. injection H as <- <- <-. right. auto.
  - rewrite E. intros H. left. split; [exact H|congruence].
Qed.

Lemma set_sync_addr s w p : w_job (set_sync s w) = Some (JAddress p) <-> w_job w = Some (JAddress p).
Proof.
  unfold set_sync. destruct (w_job w) as [[q|c' todo' [s'|]]|] eqn:E; cbn; rewrite ?E; try tauto.
  destruct (dec s s'); cbn; rewrite ?E; intuition congruence.
Qed.

Lemma set_sync_none s w : w_job (set_sync s w) = None <-> w_job w = None.
Proof.
  unfold set_sync. destruct (w_job w) as [[q|c' todo' [s'|]]|] eqn:E; cbn; rewrite ?E; try tauto.
  destruct (dec s s'); cbn; rewrite ?E; intuition congruence.
Qed.

Lemma set_sync_forward s w c todo cur : w_job w = Some (JNotify c todo cur) ->
  exists cur', w_job (set_sync s w) = Some (JNotify c todo cur') /\ (cur' = cur /\ cur <> Some s \/ cur' = None /\ cur = Some s).
Proof.
  unfold set_sync. intros E. rewrite E. destruct cur as [s'|]; [destruct (dec s s') as [<-|N]|]; cbn; eauto 10.
  - exists (Some s'). rewrite E. split; [reflexivity|]. left. split; congruence.
  - exists None. rewrite E. split; [reflexivity|]. left. split; congruence.
Qed.

Lemma set_sync_fields s w :
  w_pubs (set_sync s w) = w_pubs w /\ w_subs (set_sync s w) = w_subs w /\ w_next (set_sync s w) = w_next w /\
  w_dag (set_sync s w) = w_dag w /\ w_clients (set_sync s w) = w_clients w /\ w_waiting (set_sync s w) = w_waiting w /\
  w_answers (set_sync s w) = w_answers w.
Proof.
  unfold set_sync. destruct (w_job w) as [[q|c' todo' [s'|]]|]; cbn; try (repeat split; reflexivity).
  destruct (dec s s'); cbn; repeat split; reflexivity.
Qed.

(* ---- the invariant ---- *)

Definition about (j : option job) (p : nat) : Prop := exists todo cur, j = Some (JNotify (ForPub p) todo cur).

Definition pub_ok (w : world) (p : nat) (x : pub) : Prop :=
  p < w_next w /\ get p (w_subs w) = None /\
  match p_stage x with
  | PAsked => p_sent x = false /\ ~ In p (w_clients w) /\
      (get p (w_waiting w) = Some RPub /\ w_job w <> Some (JAddress p) \/
       get p (w_waiting w) = None /\ w_job w = Some (JAddress p))
  | PRaised => p_sent x = false /\ ~ In p (w_clients w) /\ get p (w_waiting w) = None /\ w_job w = Some (JAddress p)
  | PListens => p_sent x = true /\ get p (w_waiting w) = None /\
      (w_job w = Some (JAddress p) /\ ~ In p (w_clients w) \/ about (w_job w) p /\ In p (w_clients w))
  | PTold | PReady => p_sent x = true /\ get p (w_waiting w) = None /\ In p (w_clients w) /\ ~ about (w_job w) p
  | PGone => (get p (w_waiting w) = Some RPub -> p_sent x = false /\ w_job w <> Some (JAddress p)) /\
             (p_sent x = false -> ~ In p (w_clients w) /\ ~ about (w_job w) p)
  end /\
  (w_job w = Some (JAddress p) -> get p (w_waiting w) = None /\ ~ In p (w_clients w)) /\
  (about (w_job w) p -> get p (w_waiting w) = None).

Definition sub_ok (w : world) (s : nat) (x : sub) : Prop :=
  s < w_next w /\
  match s_stage x with
  | SAsked => get s (w_waiting w) = Some RSub /\ s_inbox x = [] /\ s_work x = None /\ s_chans x = [] /\ s_acks x = 0
  | SOpen => get s (w_waiting w) = None /\ In s (w_clients w) /\
      (s_ready x = false -> In Complete (s_inbox x) \/ exists todo cur, w_job w = Some (JNotify (ForSub s) todo cur))
  | SDead => get s (w_waiting w) = None
  | SClosed => True
  end /\
  (get s (w_waiting w) = Some RSub -> ~ In s (w_clients w) /\ s_inbox x = []).

Definition job_ok (w : world) : Prop :=
  match w_job w with
  | None => True
  | Some (JAddress p) => exists x, get p (w_pubs w) = Some x
  | Some (JNotify c todo cur) =>
      NoDup todo /\ length todo <= w_next w /\
      (forall s, In s todo -> get s (w_waiting w) = None /\ exists x, get s (w_subs w) = Some x) /\
      (forall s, cur = Some s -> ~ In s todo) /\
      match c with
      | ForPub p => exists x, get p (w_pubs w) = Some x /\ p_sent x = true
      | ForSub s => (todo = [s] /\ cur = None \/ todo = []) /\ get s (w_waiting w) = None /\ exists x, get s (w_subs w) = Some x
      | ForEdge => True
      end
  end.

Record Ctl (w : world) : Prop := {
  c_dag : DInv (w_dag w);
  c_pub : forall p x, get p (w_pubs w) = Some x -> pub_ok w p x;
  c_sub : forall s x, get s (w_subs w) = Some x -> sub_ok w s x;
  c_job : job_ok w;
  c_wait : forall i r, get i (w_waiting w) = Some r -> i < w_next w /\
             match r with RPub => exists x, get i (w_pubs w) = Some x
                        | RSub => exists x, get i (w_subs w) = Some x
                        | _ => get i (w_pubs w) = None /\ get i (w_subs w) = None end;
  c_nodup : NoDup (w_clients w);
  c_client : forall i, In i (w_clients w) -> i < w_next w /\
               ((exists x, get i (w_pubs w) = Some x) \/ exists x, get i (w_subs w) = Some x);
  c_answer : forall i a, In (i, a) (w_answers w) -> i < w_next w
}.

Lemma Ctl_start : Ctl start.
Proof.
  constructor; cbn; try discriminate; try contradiction; auto using DInv_empty, NoDup_nil.
Qed.

Lemma below_length (l : list nat) n : NoDup l -> (forall i, In i l -> i < n) -> length l <= n.
Proof.
  intros N B. rewrite <- (seq_length n 0). apply NoDup_incl_length; [exact N|]. intros i H. apply in_seq. specialize (B i H). lia.
Qed.

Lemma NoDup_filt {A} (f : A -> bool) l : NoDup l -> NoDup (filter f l).
Proof. apply NoDup_filter. Qed.

Lemma downstream_subs_spec t w s : DInv (w_dag w) ->
  (In s (downstream_subs t w) <-> In s (w_clients w) /\ exists x, get s (w_subs w) = Some x /\ connected w t (s_topic x)).
Proof.
  intros D. unfold downstream_subs. rewrite filter_In. destruct (downstream_spec (w_dag w) t D) as [_ X]. split.
  - intros [A B]. split; [exact A|]. destruct (get s (w_subs w)) as [x|]; [|discriminate]. exists x. split; [reflexivity|].
    apply mem_In in B. apply X in B as [B|B]; [left; congruence|now right].
  - intros [A [x [-> B]]]. split; [exact A|]. apply mem_In. apply X. destruct B as [B|B]; [left; congruence|now right].
Qed.

Lemma upstream_pubs_spec t w p : DInv (w_dag w) ->
  (In p (upstream_pubs t w) <-> In p (w_clients w) /\ exists x, get p (w_pubs w) = Some x /\ connected w (p_topic x) t).
Proof.
  intros D. unfold upstream_pubs. rewrite filter_In. destruct (upstream_spec (w_dag w) t D) as [_ X]. split.
  - intros [A B]. split; [exact A|]. destruct (get p (w_pubs w)) as [x|]; [|discriminate]. exists x. split; [reflexivity|].
    apply mem_In in B. apply X in B as [B|B]; [left; congruence|now right].
  - intros [A [x [-> B]]]. split; [exact A|]. apply mem_In. apply X. destruct B as [B|B]; [left; congruence|now right].
Qed.

Lemma downstream_subs_fine t w : NoDup (w_clients w) -> (forall i, In i (w_clients w) -> i < w_next w) ->
  NoDup (downstream_subs t w) /\ length (downstream_subs t w) <= w_next w /\
  forall s, In s (downstream_subs t w) -> In s (w_clients w) /\ exists x, get s (w_subs w) = Some x.
Proof.
  intros N B. split; [now apply NoDup_filter|]. split.
  - apply below_length; [now apply NoDup_filter|]. intros i H. apply B. unfold downstream_subs in H. apply filter_In in H as [H _]. exact H.
  - intros s H. unfold downstream_subs in H. apply filter_In in H as [A H]. split; [exact A|]. destruct (get s (w_subs w)); [eauto|discriminate].
Qed.
