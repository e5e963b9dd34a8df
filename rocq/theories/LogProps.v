(* C57: a message log replays what was logged. *)

From Coq Require Import List Bool Arith Lia.
From Verif Require Import Dict LogModel.
Import ListNotations.

(** ** Specification *)

(** The messages received while the file p was open, since it was last opened: whether it is open,
    and the messages (oldest first); None: the logger has not opened it.  The history is newest
    first. *)
Fixpoint logged {P M} `{Dec P} (p : P) (h : list (log_event P M)) : option (bool * list M) :=
  match h with
  | [] => None
  | e :: h =>
      let r := logged p h in
      match e with
      | Start q => if dec p q then match r with Some (true, ms) => r | _ => Some (true, []) end else r
      | Stop q => if dec p q then match r with Some (_, ms) => Some (false, ms) | None => None end else r
      | Message m => match r with Some (true, ms) => Some (true, ms ++ [m]) | _ => r end
      | Write => r
      | Shutdown => match r with Some (_, ms) => Some (false, ms) | None => None end
      end
  end.

Section Logger.
Context {P M L : Type} `{Dec P}.
Variables (dump : M -> L) (log_start : M).

Lemma write_all_get p ls (s : logger P L) : NoDup (output_files s) ->
  get p (disk (write_all ls s)) =
  if mem p (output_files s) then Some (getd p [] (disk s) ++ ls) else get p (disk s).
Proof.
  unfold write_all. cbn [disk]. generalize (disk s) as d. induction (output_files s) as [|q qs IH]; intros d N; [reflexivity|].
  apply NoDup_cons_iff in N. destruct N as [Nq N]. cbn [fold_left]. rewrite IH by exact N.
  unfold mem at 2. cbn [existsb]. fold (mem p qs). destruct (mem p qs) eqn:E.
  - rewrite orb_true_r. assert (p <> q) by (intros ->; apply mem_In in E; contradiction). unfold getd. rewrite get_put.
    destruct (dec p q); [contradiction|reflexivity].
  - rewrite orb_false_r, get_put. unfold eqd. destruct (dec p q) as [->|]; reflexivity.
Qed.

Lemma write_all_same ls (s : logger P L) : output_files (write_all ls s) = output_files s /\ write_buffer (write_all ls s) = write_buffer s /\ stopped (write_all ls s) = stopped s.
Proof. split; [reflexivity|split; reflexivity]. Qed.

(** What the logger has on disk and in memory is what was logged, if files are opened and closed
    only while nothing is buffered. *)
Definition calm (immediate : bool) (d : list (P * list L)) (h : list (log_event P M)) : Prop :=
  forall h1 e h2 s, h = h1 ++ e :: h2 -> (exists p, e = Start p \/ e = Stop p) ->
    log_after dump log_start immediate d h2 s -> write_buffer s = [].

Lemma logger_invariant immediate d h s : log_after dump log_start immediate d h s -> calm immediate d h ->
  NoDup (output_files s) /\
  (immediate = true -> write_buffer s = []) /\ (stopped s = true -> write_buffer s = []) /\
  exists buf, write_buffer s = map dump buf /\
  forall p, match logged p h with
            | None => get p (disk s) = get p d /\ mem p (output_files s) = false
            | Some (o, ms) => mem p (output_files s) = o /\
                exists old, get p (disk s) = Some (dump log_start :: map dump old) /\
                  (if o then ms = old ++ buf else ms = old)
            end.
Proof.
  intros A. induction A as [|h s e s' o A IH S]; intros C.
  - split; [constructor|]. split; [reflexivity|]. split; [discriminate|]. exists []. split; [reflexivity|]. intros p. cbn. auto.
  - assert (C' : calm immediate d h).
    { intros h1 e1 h2 s2 E Ex A2. apply (C (e :: h1) e1 h2 s2); [rewrite E; reflexivity|exact Ex|exact A2]. }
    destruct (IH C') as (N & Bi & Bs & buf & Eb & F). clear IH. unfold log_step in S. destruct (stopped s) eqn:St; [discriminate|].
    destruct e as [q|q|m| |].
    + assert (Wb : write_buffer s = []) by (apply (C [] (Start q) h s); [reflexivity|eauto|exact A]).
      assert (buf = []) as -> by (destruct buf; [reflexivity|]; rewrite Wb in Eb; discriminate).
      unfold open_file in S. destruct (mem q (output_files s)) eqn:E; injection S as <- _; cbn [output_files write_buffer disk stopped logged].
      * split; [exact N|]. split; [exact Bi|]. split; [congruence|]. exists []. split; [exact Wb|]. intros p.
        specialize (F p). destruct (dec p q) as [->|D]; [|exact F]. destruct (logged q h) as [[[] ms]|].
        -- exact F.
        -- destruct F as (F & _). congruence.
        -- destruct F as (_ & F). congruence.
      * split; [pose proof (NoDup_sadd q _ N) as N'; unfold sadd in N'; rewrite E in N'; exact N'|]. split; [intros _; exact Wb|]. split; [congruence|]. exists []. split; [exact Wb|]. intros p.
        specialize (F p). rewrite get_put. unfold mem. rewrite existsb_app. fold (mem p (output_files s)). cbn [existsb]. unfold eqd.
        destruct (dec p q) as [->|D].
        -- rewrite orb_true_l, orb_true_r. destruct (logged q h) as [[[] ms]|]; [destruct F; congruence| |]; (split; [reflexivity|]; exists []; split; reflexivity).
        -- rewrite !orb_false_r. exact F.
    + assert (Wb : write_buffer s = []) by (apply (C [] (Stop q) h s); [reflexivity|eauto|exact A]).
      assert (buf = []) as -> by (destruct buf; [reflexivity|]; rewrite Wb in Eb; discriminate).
      unfold close_file in S. destruct (mem q (output_files s)) eqn:E; injection S as <- _; cbn [output_files write_buffer disk stopped logged].
      * split; [apply NoDup_sdel; exact N|]. split; [intros _; exact Wb|]. split; [congruence|]. exists []. split; [exact Wb|]. intros p.
        specialize (F p). assert (Ms : mem p (sdel q (output_files s)) = if dec p q then false else mem p (output_files s)).
        { destruct (dec p q) as [->|D].
          - apply mem_false. intros I. apply In_sdel in I. tauto.
          - destruct (mem p (output_files s)) eqn:E2; [apply mem_In; apply In_sdel; split; [congruence|apply mem_In; exact E2]|].
            apply mem_false. intros I. apply In_sdel in I. destruct I as [_ I]. apply mem_In in I. congruence. }
        rewrite Ms. destruct (dec p q) as [->|D]; [|exact F]. destruct (logged q h) as [[[] ms]|].
        -- destruct F as (_ & old & Fd & Fm). split; [reflexivity|]. exists old. split; [exact Fd|]. rewrite app_nil_r in Fm. exact Fm.
        -- destruct F as (F & _). congruence.
        -- destruct F as (_ & F). congruence.
      * split; [exact N|]. split; [exact Bi|]. split; [congruence|]. exists []. split; [exact Wb|]. intros p. specialize (F p).
        destruct (dec p q) as [->|D]; [|exact F]. destruct (logged q h) as [[[] ms]|].
        -- destruct F as (F & _). congruence.
        -- exact F.
        -- exact F.
    + assert (E : s' = if immediate then write_all [dump m] s else Logger (output_files s) (write_buffer s ++ [dump m]) (disk s) (stopped s)) by (rewrite St; congruence).
      destruct immediate; subst s'.
      * assert (buf = []) as -> by (destruct buf; [reflexivity|]; rewrite (Bi eq_refl) in Eb; discriminate).
        split; [exact N|]. split; [exact Bi|]. split; [cbn [stopped write_all]; congruence|]. exists []. split; [exact Eb|]. intros p. specialize (F p).
        change (output_files (write_all [dump m] s)) with (output_files s). rewrite write_all_get by exact N. cbn [logged].
        destruct (logged p h) as [[[] ms]|].
        -- destruct F as (F & old & Fd & Fm). rewrite F. split; [reflexivity|]. exists (old ++ [m]). unfold getd. rewrite Fd, map_app. split; [reflexivity|].
           rewrite app_nil_r in *. rewrite Fm. reflexivity.
        -- destruct F as (F & old & Fd & Fm). rewrite F. split; [reflexivity|]. exists old. auto.
        -- destruct F as (Fd & F). rewrite F. auto.
      * cbn [output_files write_buffer disk stopped logged]. split; [exact N|]. split; [discriminate|]. split; [congruence|]. exists (buf ++ [m]).
        split; [rewrite map_app, Eb; reflexivity|]. intros p. specialize (F p). destruct (logged p h) as [[[] ms]|]; [|exact F|exact F].
        destruct F as (F & old & Fd & Fm). split; [exact F|]. exists old. split; [exact Fd|]. rewrite Fm, app_assoc. reflexivity.
    + destruct immediate; [discriminate|]. injection S as <- _. cbn [output_files write_buffer disk stopped clear_buffer logged].
      split; [exact N|]. split; [reflexivity|]. split; [reflexivity|]. exists []. split; [reflexivity|]. intros p. specialize (F p).
      change (output_files (write_all (write_buffer s) s)) with (output_files s). rewrite write_all_get by exact N.
      destruct (logged p h) as [[[] ms]|].
      -- destruct F as (F & old & Fd & Fm). rewrite F. split; [reflexivity|]. exists (old ++ buf). unfold getd. rewrite Fd, map_app, Eb. split; [reflexivity|]. rewrite app_nil_r. exact Fm.
      -- destruct F as (F & old & Fd & Fm). rewrite F. split; [reflexivity|]. exists old. auto.
      -- destruct F as (Fd & F). rewrite F. auto.
    + assert (Ed : forall p, get p (disk (match write_buffer s with [] => s | b => clear_buffer (write_all b s) end)) =
                 if mem p (output_files s) then Some (getd p [] (disk s) ++ write_buffer s) else get p (disk s)).
      { intros p. destruct (write_buffer s) as [|l ls] eqn:W.
        - specialize (F p). destruct (mem p (output_files s)) eqn:E; [|reflexivity]. unfold getd. destruct (logged p h) as [[o' ms]|].
          + destruct F as (_ & old & Fd & _). rewrite Fd, app_nil_r. reflexivity.
          + destruct F as (_ & F). discriminate.
        - cbn [disk clear_buffer]. apply write_all_get. exact N. }
      assert (Wb : write_buffer (match write_buffer s with [] => s | b => clear_buffer (write_all b s) end) = []) by (destruct (write_buffer s) eqn:W; [exact W|reflexivity]).
      injection S as <- _. cbn [output_files write_buffer disk stopped logged].
      split; [constructor|]. split; [intros _; exact Wb|]. split; [intros _; exact Wb|]. exists []. split; [exact Wb|]. intros p. specialize (F p). rewrite Ed.
      destruct (logged p h) as [[[] ms]|].
      -- destruct F as (F & old & Fd & Fm). rewrite F. split; [reflexivity|]. exists (old ++ buf). unfold getd. rewrite Fd, map_app, Eb. split; [reflexivity|exact Fm].
      -- destruct F as (F & old & Fd & Fm). rewrite F. split; [reflexivity|]. exists old. auto.
      -- destruct F as (Fd & F). rewrite F. auto.
Qed.

Lemma immediate_buffer d h s : log_after dump log_start true d h s -> write_buffer s = [].
Proof.
  induction 1 as [|h s e s' o A IH S]; [reflexivity|]. unfold log_step in S. destruct (stopped s); [discriminate|]. destruct e as [q|q|m| |].
  - unfold open_file in S. destruct (mem q (output_files s)); injection S as <- _; exact IH.
  - unfold close_file in S. destruct (mem q (output_files s)); injection S as <- _; exact IH.
  - injection S as <- _. exact IH.
  - discriminate.
  - rewrite IH in S. injection S as <- _. exact IH.
Qed.

Variables (load : L -> option M) (is_start : M -> bool).

Lemma message_log_dump : (forall m, load (dump m) = Some m) -> is_start log_start = true ->
  forall ms, (forall m, In m ms -> is_start m = false) -> message_log load is_start (dump log_start :: map dump ms) = Some ms.
Proof.
  intros RT LS ms NS. cbn [message_log]. rewrite RT, LS.
  assert (E : message_log load is_start (map dump ms) = Some ms); [|rewrite E; reflexivity].
  induction ms as [|m ms IH]; [reflexivity|]. cbn [map message_log]. rewrite RT, IH by (intros x I; apply NS; right; exact I).
  cbn [option_map]. rewrite (NS m (or_introl eq_refl)). reflexivity.
Qed.

Lemma logged_In p (h : list (log_event P M)) o (ms : list M) : logged p h = Some (o, ms) -> forall m, In m ms -> In (Message m) h.
Proof.
  revert o ms. induction h as [|e h IH]; intros o ms E m I; [discriminate|]. cbn [logged] in E. destruct e as [q|q|x| |].
  - destruct (dec p q).
    + destruct (logged p h) as [[[] ms0]|]; injection E as <- <-; [right; eapply IH; [reflexivity|exact I]|destruct I..].
    + right. eapply IH; [exact E|exact I].
  - destruct (dec p q); [|right; eapply IH; [exact E|exact I]]. destruct (logged p h) as [[o0 ms0]|]; [|discriminate]. injection E as <- <-.
    right. eapply IH; [reflexivity|exact I].
  - destruct (logged p h) as [[[] ms0]|]; [| |discriminate]; injection E as <- <-.
    + apply in_app_or in I. destruct I as [I|[->|[]]]; [right; eapply IH; [reflexivity|exact I]|left; reflexivity].
    + right. eapply IH; [reflexivity|exact I].
  - right. eapply IH; [exact E|exact I].
  - destruct (logged p h) as [[o0 ms0]|]; [|discriminate]. injection E as <- <-. right. eapply IH; [reflexivity|exact I].
Qed.
End Logger.

(** C57.  With immediate writing (write_period <= 0), and messages that survive writing and reading
    and are not LogStart themselves: at any time each file the logger has opened reads back as
    exactly the messages received while it was open, since it was last opened, in order; other
    files are left alone. *)
Theorem C57_log_holds_what_was_received :
  forall P M L (HP : Dec P) (dump : M -> L) load log_start is_start (d : list (P * list L)) (h : list (log_event P M)) s p,
    (forall m, load (dump m) = Some m) -> is_start log_start = true ->
    (forall m, In (Message m) h -> is_start m = false) ->
    log_after dump log_start true d h s ->
    match logged p h with
    | Some (_, ms) => exists ls, get p (disk s) = Some ls /\ message_log load is_start ls = Some ms
    | None => get p (disk s) = get p d
    end.
Proof.
  intros P M L HP dump load log_start is_start d h s p RT LS NS A.
  destruct (logger_invariant dump log_start true d h s A) as (_ & _ & _ & buf & Eb & F).
  { intros h1 e h2 s2 _ _ A2. exact (immediate_buffer _ _ _ _ _ A2). }
  rewrite (immediate_buffer _ _ _ _ _ A) in Eb. assert (buf = []) as -> by (destruct buf; [reflexivity|discriminate]).
  specialize (F p). destruct (logged p h) as [[o ms]|] eqn:E; [|apply F]. destruct F as (_ & old & Fd & Fm).
  assert (ms = old) as -> by (destruct o; [rewrite app_nil_r in Fm|]; exact Fm). eexists. split; [exact Fd|].
  apply message_log_dump; [exact RT|exact LS|]. intros m I. apply NS. exact (logged_In _ _ _ _ E m I).
Qed.
Print Assumptions C57_log_holds_what_was_received.

(** C57, partial.  With buffered writing the same holds of a closed file, and after a write or the
    shutdown of an open one, provided that files are only opened and closed while nothing is
    buffered.  Missing: opening and closing at any time, where it is false, see below. *)
Theorem C57_buffered_log_partial :
  forall P M L (HP : Dec P) (dump : M -> L) load log_start is_start (d : list (P * list L)) (h : list (log_event P M)) s p,
    (forall m, load (dump m) = Some m) -> is_start log_start = true ->
    (forall m, In (Message m) h -> is_start m = false) ->
    log_after dump log_start false d h s ->
    (forall h1 e h2 s', h = h1 ++ e :: h2 -> (exists q, e = Start q \/ e = Stop q) ->
       log_after dump log_start false d h2 s' -> write_buffer s' = []) ->
    match logged p h with
    | Some (o, ms) => o = false \/ write_buffer s = [] ->
        exists ls, get p (disk s) = Some ls /\ message_log load is_start ls = Some ms
    | None => get p (disk s) = get p d
    end.
Proof.
  intros P M L HP dump load log_start is_start d h s p RT LS NS A C.
  destruct (logger_invariant dump log_start false d h s A C) as (_ & _ & _ & buf & Eb & F).
  specialize (F p). destruct (logged p h) as [[o ms]|] eqn:E; [|apply F]. destruct F as (_ & old & Fd & Fm). intros O.
  assert (ms = old) as ->.
  { destruct O as [->|O]; [exact Fm|]. rewrite O in Eb. assert (buf = []) as -> by (destruct buf; [reflexivity|discriminate]).
    destruct o; [rewrite app_nil_r in Fm|]; exact Fm. }
  eexists. split; [exact Fd|]. apply message_log_dump; [exact RT|exact LS|]. intros m I. apply NS. exact (logged_In _ _ _ _ E m I).
Qed.
Print Assumptions C57_buffered_log_partial.

(** ** Cases: messages are numbers, 0 is LogStart. *)

Fixpoint log_run (immediate : bool) (h : list (log_event nat nat)) : option (logger nat nat) :=
  match h with
  | [] => Some (new_logger [])
  | e :: h => match log_run immediate h with Some s => option_map fst (log_step (fun m => m) 0 immediate s e) | None => None end
  end.

Lemma log_run_after immediate h : forall s, log_run immediate h = Some s -> log_after (fun m => m) 0 immediate [] h s.
Proof.
  induction h as [|e h IH]; intros s E; cbn [log_run] in E; [injection E as <-; constructor|].
  destruct (log_run immediate h) as [s0|]; [|discriminate]. destruct (log_step (fun m => m) 0 immediate s0 e) as [[s1 o]|] eqn:S; [|discriminate].
  injection E as <-. eapply log_after_event; [apply IH; reflexivity|exact S].
Qed.

Definition case_end : logger nat nat := Eval vm_compute in
  match log_run true [Message 4; Start 7; Message 3; Stop 7; Message 2; Start 8; Message 1; Start 7] with
  | Some s => s | None => new_logger [] end.

Example C57_case :
  exists s, log_after (fun m : nat => m) 0 true [] [Message 4; Start 7; Message 3; Stop 7; Message 2; Start 8; Message 1; Start 7] s /\
    logged 7 [Message 4; Start 7; Message 3; Stop 7; Message 2; Start 8; Message 1; Start 7] = Some (true, [4]) /\
    logged 8 [Message 4; Start 7; Message 3; Stop 7; Message 2; Start 8; Message 1; Start 7] = Some (true, [2; 3; 4]) /\
    get 8 (disk s) = Some [0; 2; 3; 4].
Proof.
  exists case_end. split; [apply log_run_after; vm_compute; reflexivity|]. split; [reflexivity|]. split; reflexivity.
Qed.

Example C57_case_buffered :
  exists s, log_after (fun m : nat => m) 0 false [] [Shutdown; Message 2; Write; Message 1; Start 7] s /\
    (forall h1 e h2 s', [Shutdown; Message 2; Write; Message 1; Start 7] = h1 ++ e :: h2 -> (exists q, e = Start q \/ e = Stop q) ->
       log_after (fun m : nat => m) 0 false [] h2 s' -> write_buffer s' = []) /\
    logged 7 [Shutdown; Message 2; Write; Message 1; Start 7] = Some (false, [1; 2]).
Proof.
  eexists. split; [apply log_run_after; reflexivity|]. split; [|reflexivity].
  intros h1 e h2 s' E (q & X) A. destruct h1 as [|a [|b [|c [|c2 [|c3 r]]]]]; cbn in E; try (injection E; intros; subst; destruct X; discriminate).
  - injection E. intros. subst. inversion A. reflexivity.
  - destruct r; discriminate.
Qed.

(** C57 finding: with buffered writing, a message received before a file is opened is written to it. *)
Theorem C57_buffered_message_before_start_refuted :
  exists h s ls, log_after (fun m : nat => m) 0 false [] h s /\ h = [Write; Start 7; Message 1] /\
    logged 7 h = Some (true, []) /\ get 7 (disk s) = Some ls /\ message_log Some (fun m => Nat.eqb m 0) ls = Some [1].
Proof. exists [Write; Start 7; Message 1]. do 2 eexists. split; [apply log_run_after; reflexivity|]. split; [reflexivity|]. split; [reflexivity|]. split; reflexivity. Qed.
Print Assumptions C57_buffered_message_before_start_refuted.

(** C57 finding: with buffered writing, messages received shortly before a file is closed are not
    written to it. *)
Theorem C57_buffered_message_before_stop_refuted :
  exists h s ls, log_after (fun m : nat => m) 0 false [] h s /\ h = [Shutdown; Stop 7; Message 1; Start 7] /\
    logged 7 h = Some (false, [1]) /\ get 7 (disk s) = Some ls /\ message_log Some (fun m => Nat.eqb m 0) ls = Some [].
Proof. exists [Shutdown; Stop 7; Message 1; Start 7]. do 2 eexists. split; [apply log_run_after; reflexivity|]. split; [reflexivity|]. split; [reflexivity|]. split; reflexivity. Qed.
Print Assumptions C57_buffered_message_before_stop_refuted.

(** ** Replaying *)

Section Replay.
Context {M L : Type}.
Variables (load : L -> option M) (is_start : M -> bool).

(** The messages in a file: the lines that can be read, but for LogStart. *)
Definition content (f : list L) : list M :=
  flat_map (fun l => match load l with Some m => if is_start m then [] else [m] | None => [] end) f.

(** The messages published, oldest first. *)
Definition messages (out : list (replay_output M)) : list M :=
  flat_map (fun o => match o with Msg m => [m] | _ => [] end) (rev out).

(** The files queued, oldest first. *)
Definition queued (f0 : option (list L)) (h : list (replay_event L)) : list (list L) :=
  match f0 with Some f => [f] | None => [] end ++
  flat_map (fun e => match e with QueueFile f => [f] | _ => [] end) (rev h).

Definition no_stop (h : list (replay_event L)) : Prop := forall b, ~ In (DoStop b) h.

(** The totals published, oldest first. *)
Definition totals (out : list (replay_output M)) : list nat :=
  flat_map (fun o => match o with Total n => [n] | _ => [] end) (rev out).

(** [subseq a b]: a is b with some elements left out. *)
Inductive subseq {A} : list A -> list A -> Prop :=
| subseq_nil : subseq [] []
| subseq_take x a b : subseq a b -> subseq (x :: a) (x :: b)
| subseq_skip x a b : subseq a b -> subseq a (x :: b).

Lemma subseq_refl {A} (a : list A) : subseq a a.
Proof. induction a; constructor; assumption. Qed.

Lemma subseq_snoc {A} (a b : list A) x : subseq a b -> subseq (a ++ [x]) (b ++ [x]).
Proof. induction 1; cbn; constructor; try assumption. constructor. Qed.

Lemma messages_app a b : messages (a ++ b) = messages b ++ messages a.
Proof. unfold messages. rewrite rev_app_distr, flat_map_app. reflexivity. Qed.

Lemma totals_app a b : totals (a ++ b) = totals b ++ totals a.
Proof. unfold totals. rewrite rev_app_distr, flat_map_app. reflexivity. Qed.

Lemma subseq_none {A} (b : list A) : subseq [] b.
Proof. induction b; constructor; assumption. Qed.

Lemma subseq_app_l {A} (a : list A) : forall c b, subseq (a ++ c) b -> subseq a b.
Proof.
  induction a as [|x a IH]; intros c b H; [apply subseq_none|]. cbn [app] in H. remember (x :: a ++ c) as k eqn:E.
  induction H as [|y k b H IHs|y k b H IHs]; [discriminate| |].
  - injection E as -> ->. apply subseq_take. exact (IH c b H).
  - apply subseq_skip. exact (IHs E).
Qed.

Notation part x := (content (firstn (snd x) (fst x))) (only parsing).

Definition at_file (p : @phase L) (cur : option (list L * nat)) : Prop :=
  match p with
  | Idle => cur = None
  | Announced f => cur = Some (f, 0)
  | AtLine f rest i pub | Paused f rest i pub | Woken f rest i pub =>
      cur = Some (f, i) /\ rest = skipn i f /\ i <= length f /\ pub = length (content (firstn i f))
  | Sending f l rest i pub =>
      cur = Some (f, i) /\ l :: rest = skipn i f /\ i <= length f /\ pub = length (content (firstn i f))
  | Ending f i pub => cur = Some (f, i) /\ i <= length f /\ pub = length (content (firstn i f))
  | Totalling pub => exists f i, cur = Some (f, i) /\ pub = length (content (firstn i f))
  end.

Definition ended (p : @phase L) : Prop := match p with Ending _ _ _ | Totalling _ => True | _ => False end.

Definition opt {A : Type} (x : option A) : list A := match x with Some a => [a] | None => [] end.

Definition Inv (f0 : option (list L)) (h : list (replay_event L)) (s : replayer L) (out : list (replay_output M)) : Prop :=
  exists (taken : list (list L * nat)) (cur : option (list L * nat)),
    messages out = flat_map (fun x => part x) (taken ++ opt cur) /\
    totals out = map (fun x => length (part x)) taken /\
    at_file (at_ s) cur /\
    subseq (map fst (taken ++ opt cur) ++ replay_files s) (queued f0 h) /\
    (no_stop h -> (stop s = true -> at_ s = Idle /\ False) /\
       map fst (taken ++ opt cur) ++ replay_files s = queued f0 h /\
       (forall f i, In (f, i) taken -> i = length f) /\
       (ended (at_ s) -> forall f i, cur = Some (f, i) -> i = length f)).

Lemma queued_cons f0 e h : queued f0 (e :: h) = queued f0 h ++ match e with QueueFile f => [f] | _ => [] end.
Proof. unfold queued. cbn [rev]. rewrite flat_map_app, app_assoc. cbn [flat_map]. rewrite app_nil_r. reflexivity. Qed.

Lemma no_stop_cons e h : no_stop (e :: h) -> no_stop h.
Proof. intros N b I. apply (N b). right. exact I. Qed.

(** The loop going on keeps the invariant. *)
Lemma go_on_inv f0 h s out s' o f rest i pub taken :
  messages out = flat_map (fun x => part x) (taken ++ [(f, i)]) ->
  totals out = map (fun x => length (part x)) taken ->
  subseq (map fst (taken ++ [(f, i)]) ++ replay_files s) (queued f0 h) ->
  rest = skipn i f -> i <= length f -> pub = length (content (firstn i f)) ->
  (no_stop h -> stop s = false /\ map fst (taken ++ [(f, i)]) ++ replay_files s = queued f0 h /\
     (forall f i, In (f, i) taken -> i = length f)) ->
  go_on s f rest i pub = (s', o) -> Inv f0 (Tick :: h) s' (rev o ++ out).
Proof.
  intros Em Et Sq Er Li Ep N G. unfold go_on in G.
  assert (Inv0 : forall p b, at_file p (Some (f, i)) -> (no_stop h -> b = false) -> (no_stop h -> ended p -> i = length f) ->
     forall o', messages o' = [] -> totals o' = [] -> Inv f0 (Tick :: h) (Replayer (replay_files s) (running s) b p) (o' ++ out)).
  { intros p b Ap Bb Be o' Mo To. exists taken, (Some (f, i)). rewrite messages_app, totals_app, Mo, To, !app_nil_r, queued_cons, app_nil_r. cbn [opt replay_files at_ stop].
    split; [exact Em|]. split; [exact Et|]. split; [exact Ap|]. split; [exact Sq|]. intros Ns. apply no_stop_cons in Ns. destruct (N Ns) as (N1 & N2 & N3).
    split; [rewrite (Bb Ns); discriminate|]. split; [exact N2|]. split; [exact N3|]. intros E g j F. injection F as <- <-. exact (Be Ns E). }
  destruct rest as [|l rest].
  - injection G as <- <-. apply (Inv0 _ (stop s)); try reflexivity.
    + cbn. auto.
    + intros Ns. apply N. exact Ns.
    + intros _ _. symmetry in Er. apply (f_equal (@length L)) in Er. rewrite skipn_length in Er. cbn in Er. lia.
  - destruct (stop s) eqn:St.
    + injection G as <- <-. apply (Inv0 _ false); try reflexivity; [cbn; auto|]. intros Ns. destruct (N Ns). discriminate.
    + injection G as <- <-. apply (Inv0 _ false); try reflexivity; [cbn; auto|]. intros _ [].
Qed.

Lemma replay_invariant f0 h s out : replay_after load is_start f0 h s out -> Inv f0 h s out.
Proof.
  induction 1 as [|h s out e s' o A (taken & cur & Em & Et & Ap & Sq & N) S].
  - exists [], None. split; [reflexivity|]. split; [reflexivity|]. split; [reflexivity|]. cbn [app opt map].
    assert (Q : queued f0 [] = replay_files (new_replayer f0)) by (unfold queued; cbn; destruct f0; reflexivity). rewrite Q. split; [apply subseq_refl|].
    intros _. split; [discriminate|]. split; [reflexivity|]. split; [intros f i []|intros []].
  - destruct e as [f|b|b|]; cbn [replay_step] in S.
    + injection S as <- <-. exists taken, cur. cbn [replay_files at_ stop rev app]. rewrite queued_cons. split; [exact Em|]. split; [exact Et|]. split; [exact Ap|].
      rewrite app_assoc. split; [apply subseq_snoc; exact Sq|]. intros Ns. apply no_stop_cons in Ns. destruct (N Ns) as (N1 & N2 & N3 & N4).
      split; [exact N1|]. split; [rewrite N2; reflexivity|]. auto.
    + assert (E : exists r p, s' = Replayer (replay_files s) r (stop s) p /\ o = [] /\ (p = at_ s \/ exists f rest i pub, at_ s = Paused f rest i pub /\ p = Woken f rest i pub)).
      { destruct b; injection S as <- <-; [eauto 10|]. do 2 eexists. split; [reflexivity|]. split; [reflexivity|]. destruct (at_ s); eauto 10. }
      destruct E as (r & p & -> & -> & Ep). exists taken, cur. cbn [replay_files at_ stop rev app]. rewrite queued_cons, app_nil_r.
      split; [exact Em|]. split; [exact Et|]. destruct Ep as [->|(f & rest & i & pub & Ea & ->)].
      * split; [exact Ap|]. split; [exact Sq|]. intros Ns. apply no_stop_cons in Ns. exact (N Ns).
      * rewrite Ea in *. split; [exact Ap|]. split; [exact Sq|]. intros Ns. apply no_stop_cons in Ns. destruct (N Ns) as (N1 & N2 & N3 & N4).
        split; [intros F; destruct (N1 F); contradiction|]. split; [exact N2|]. split; [exact N3|]. intros [].
    + injection S as <- <-. exists taken, cur. cbn [replay_files at_ stop rev app]. rewrite queued_cons, app_nil_r. split; [exact Em|]. split; [exact Et|]. split; [exact Ap|].
      split; [destruct b; [apply subseq_app_l in Sq; rewrite app_nil_r; exact Sq|exact Sq]|]. intros Ns. exfalso. apply (Ns b). left. reflexivity.
    + unfold tick in S.
      assert (Keep : forall p, s' = Replayer (replay_files s) (running s) (stop s) p -> at_file p cur -> (ended p -> ended (at_ s) \/ forall f i, cur = Some (f, i) -> i = length f) ->
                messages o = [] -> totals o = [] -> Inv f0 (Tick :: h) s' (rev o ++ out)).
      { intros p -> Ap' En Mo To. assert (Mr : messages (rev o) = []).
        { unfold messages in *. rewrite rev_involutive. clear -Mo. induction o as [|x o IH]; [reflexivity|]. cbn [rev] in Mo. rewrite flat_map_app in Mo. apply app_eq_nil in Mo.
          destruct Mo as [M1 M2]. cbn [flat_map] in *. rewrite app_nil_r in M2. rewrite M2. exact (IH M1). }
        assert (Tr : totals (rev o) = []).
        { unfold totals in *. rewrite rev_involutive. clear -To. induction o as [|x o IH]; [reflexivity|]. cbn [rev] in To. rewrite flat_map_app in To. apply app_eq_nil in To.
          destruct To as [M1 M2]. cbn [flat_map] in *. rewrite app_nil_r in M2. rewrite M2. exact (IH M1). }
        exists taken, cur. rewrite messages_app, totals_app, Mr, Tr, !app_nil_r, queued_cons, app_nil_r. cbn [replay_files at_ stop].
        split; [exact Em|]. split; [exact Et|]. split; [exact Ap'|]. split; [exact Sq|]. intros Ns. apply no_stop_cons in Ns. destruct (N Ns) as (N1 & N2 & N3 & N4).
        split; [intros F; destruct (N1 F); contradiction|]. split; [exact N2|]. split; [exact N3|]. intros E. destruct (En E) as [E'|E']; [exact (N4 E')|exact E']. }
      destruct (at_ s) as [|f|f rest i pub|f rest i pub|f rest i pub|f l rest i pub|f i pub|pub] eqn:Ea; cbn [at_file] in Ap.
      * destruct (replay_files s) as [|f fs] eqn:Ef; [discriminate|]. injection S as <- <-. subst cur. cbn [opt] in *. rewrite app_nil_r in *.
        exists taken, (Some (f, 0)). cbn [rev app]. rewrite queued_cons; cbv iota; rewrite app_nil_r. cbn [opt replay_files at_ stop]. unfold messages, totals in *. cbn [rev]. rewrite !flat_map_app. cbn [flat_map].
        rewrite !app_nil_r. split; [rewrite Em; cbn; rewrite ?app_nil_r; reflexivity|]. split; [exact Et|]. split; [reflexivity|]. rewrite map_app, <- app_assoc. cbn [map app fst].
        split; [exact Sq|]. intros Ns. apply no_stop_cons in Ns. destruct (N Ns) as (N1 & N2 & N3 & _). split; [intros F; destruct (N1 F); contradiction|]. split; [exact N2|]. split; [exact N3|intros []].
      * injection S as <- <-. subst cur. exists taken, (Some (f, 0)). cbn [rev app]. rewrite queued_cons; cbv iota; rewrite app_nil_r. cbn [opt replay_files at_ stop].
        split; [exact Em|]. split; [exact Et|]. split; [cbn; split; [reflexivity|]; split; [reflexivity|]; split; [lia|reflexivity]|]. split; [exact Sq|].
        intros Ns. apply no_stop_cons in Ns. destruct (N Ns) as (N1 & N2 & N3 & _). split; [discriminate|]. split; [exact N2|]. split; [exact N3|intros []].
      * destruct Ap as (-> & Er & Li & Ep). cbn [opt] in *.
        assert (N' : no_stop h -> stop s = false /\ map fst (taken ++ [(f, i)]) ++ replay_files s = queued f0 h /\ (forall f i, In (f, i) taken -> i = length f)).
        { intros Ns. destruct (N Ns) as (N1 & N2 & N3 & _). split; [|auto]. destruct (stop s); [destruct (N1 eq_refl); contradiction|reflexivity]. }
        destruct rest as [|l rest].
        -- injection S as <- <-. eapply (go_on_inv f0 h s out _ [] f [] i pub taken); eauto.
        -- destruct (running s).
           ++ assert (G : go_on s f (l :: rest) i pub = (s', o)) by congruence. eapply go_on_inv; eauto.
           ++ injection S as <- <-. apply (Keep (Paused f (l :: rest) i pub)); try reflexivity; [cbn; auto|intros []].
      * discriminate.
      * destruct Ap as (-> & Er & Li & Ep). cbn [opt] in *.
        assert (N' : no_stop h -> stop s = false /\ map fst (taken ++ [(f, i)]) ++ replay_files s = queued f0 h /\ (forall f i, In (f, i) taken -> i = length f)).
        { intros Ns. destruct (N Ns) as (N1 & N2 & N3 & _). split; [|auto]. destruct (stop s); [destruct (N1 eq_refl); contradiction|reflexivity]. }
        assert (G : go_on s f rest i pub = (s', o)) by congruence. eapply go_on_inv; eauto.
      * destruct Ap as (-> & Er & Li & Ep). cbn [opt] in *.
        assert (Li' : i + 1 <= length f) by (apply (f_equal (@length L)) in Er; rewrite skipn_length in Er; cbn in Er; lia).
        assert (Ei : firstn (i + 1) f = firstn i f ++ [l] /\ rest = skipn (i + 1) f).
        { clear -Er. revert i Er. induction f as [|x f IH]; intros [|i] Er; cbn in Er; try discriminate; [injection Er as -> ->; split; reflexivity|].
          destruct (IH i Er) as (E1 & E2). cbn [Nat.add firstn skipn app]. rewrite E1. split; [reflexivity|exact E2]. }
        destruct Ei as (Ef & Es).
        assert (Go : forall o' pub', (forall m, load l = Some m -> is_start m = false -> o' = [Msg m] /\ pub' = pub + 1) ->
                  ((load l = None \/ exists m, load l = Some m /\ is_start m = true) -> o' = [] /\ pub' = pub) ->
                  Inv f0 (Tick :: h) (Replayer (replay_files s) (running s) (stop s) (AtLine f rest (i + 1) pub')) (rev o' ++ out)).
        { intros o' pub' H1 H2.
          assert (C : content (firstn (i + 1) f) = content (firstn i f) ++ flat_map (fun o => match o with Msg m => [m] | _ => [] end) o' /\
                      pub' = length (content (firstn (i + 1) f)) /\ messages (rev o') = flat_map (fun o => match o with Msg m => [m] | _ => [] end) o' /\ totals (rev o') = []).
          { rewrite Ef. unfold content at 1 3. rewrite !flat_map_app, app_length. fold (content (firstn i f)). cbn [flat_map]. rewrite app_nil_r.
            unfold messages, totals. rewrite rev_involutive. destruct (load l) as [m|].
            - destruct (is_start m) eqn:Is.
              + destruct (H2 (or_intror (ex_intro _ m (conj eq_refl Is)))) as (-> & ->). cbn. split; [reflexivity|]. split; [lia|]. auto.
              + destruct (H1 m eq_refl Is) as (-> & ->). cbn. split; [reflexivity|]. split; [lia|]. auto.
            - destruct (H2 (or_introl eq_refl)) as (-> & ->). cbn. split; [reflexivity|]. split; [lia|]. auto. }
          destruct C as (C1 & C2 & C3 & C4). exists taken, (Some (f, i + 1)). rewrite messages_app, totals_app, C3, C4, app_nil_r, queued_cons, app_nil_r. cbn [opt replay_files at_ stop].
          split; [rewrite Em, !flat_map_app; cbn [flat_map fst snd]; rewrite !app_nil_r, C1, app_assoc; reflexivity|]. split; [exact Et|]. split; [cbn; auto|].
          rewrite map_app in *. cbn [map fst] in *. split; [exact Sq|]. intros Ns. apply no_stop_cons in Ns. destruct (N Ns) as (N1 & N2 & N3 & _).
          split; [intros F; destruct (N1 F); contradiction|]. split; [exact N2|]. split; [exact N3|intros []]. }
        destruct (load l) as [m|] eqn:El.
        -- destruct (is_start m) eqn:Is; injection S as <- <-; apply Go.
           ++ intros m' E1 E2. assert (m' = m) as -> by congruence. congruence.
           ++ auto.
           ++ intros m' E1 E2. assert (m' = m) as -> by congruence. auto.
           ++ intros [F|(m' & F1 & F2)]; [discriminate|]. assert (m' = m) as -> by congruence. congruence.
        -- injection S as <- <-. apply Go; [discriminate|auto].
      * injection S as <- <-. apply (Keep (Totalling pub)); try reflexivity; [|left; exact I]. cbn. exists f, i. destruct Ap as (-> & _ & ->). auto.
      * destruct Ap as (f & i & -> & ->). injection S as <- <-. exists (taken ++ [(f, i)]), None. cbn [rev app]. rewrite queued_cons; cbv iota; rewrite app_nil_r. cbn [opt replay_files at_ stop] in *.
        rewrite !app_nil_r. unfold messages, totals in *. cbn [rev]. rewrite !flat_map_app. cbn [flat_map]. rewrite !app_nil_r. rewrite Et. split; [rewrite Em, flat_map_app; cbn; rewrite ?app_nil_r; reflexivity|].
        split; [rewrite map_app; reflexivity|]. split; [reflexivity|]. split; [exact Sq|]. intros Ns. apply no_stop_cons in Ns. destruct (N Ns) as (N1 & N2 & N3 & N4).
        split; [intros F; destruct (N1 F); contradiction|]. split; [exact N2|]. split; [|intros []]. intros g j J. apply in_app_or in J. destruct J as [J|[J|[]]]; [exact (N3 g j J)|].
        injection J as <- <-. apply (N4 I f i eq_refl).
Qed.
End Replay.

(** C57.  Unless it is told to stop, the replayer publishes the messages of the queued files, in the
    order of the queue and of their lines; when it waits for a file it has published all of them, and
    after each file how many they were. *)
Theorem C57_replays_the_queued_files :
  forall M L (load : L -> option M) is_start f0 (h : list (replay_event L)) s out,
    replay_after load is_start f0 h s out -> (forall b, ~ In (DoStop b) h) ->
    exists rest,
      flat_map (content load is_start) (queued f0 h) = messages out ++ rest /\
      (at_ s = Idle -> replay_files s = [] ->
         rest = [] /\ totals out = map (fun f => length (content load is_start f)) (queued f0 h)).
Proof.
  intros M L load is_start f0 h s out A Ns. destruct (replay_invariant _ _ _ _ _ _ A) as (taken & cur & Em & Et & Ap & _ & N).
  destruct (N Ns) as (_ & N2 & N3 & _).
  assert (Et' : flat_map (fun x => content load is_start (firstn (snd x) (fst x))) taken = flat_map (content load is_start) (map fst taken)).
  { clear -N3. induction taken as [|[f i] taken IH]; [reflexivity|]. cbn [flat_map map fst snd]. rewrite IH by (intros g j I; apply (N3 g j); right; exact I).
    rewrite (N3 f i (or_introl eq_refl)), firstn_all. reflexivity. }
  assert (Tt : map (fun x => length (content load is_start (firstn (snd x) (fst x)))) taken = map (fun f => length (content load is_start f)) (map fst taken)).
  { clear -N3. induction taken as [|[f i] taken IH]; [reflexivity|]. cbn [map fst snd]. rewrite IH by (intros g j I; apply (N3 g j); right; exact I).
    rewrite (N3 f i (or_introl eq_refl)), firstn_all. reflexivity. }
  rewrite <- N2, Em, Et, Tt, map_app, !flat_map_app, Et', <- !app_assoc. destruct cur as [[f i]|]; cbn [opt map flat_map fst snd app].
  - rewrite app_nil_r. exists (content load is_start (skipn i f) ++ flat_map (content load is_start) (replay_files s)). split.
    + assert (Ec : content load is_start f = content load is_start (firstn i f) ++ content load is_start (skipn i f)) by (unfold content; rewrite <- flat_map_app, firstn_skipn; reflexivity).
      rewrite Ec, <- !app_assoc. reflexivity.
    + intros I. rewrite I in Ap. discriminate.
  - exists (flat_map (content load is_start) (replay_files s)). split; [rewrite app_nil_r; reflexivity|]. intros _ ->. rewrite app_nil_r. split; reflexivity.
Qed.
Print Assumptions C57_replays_the_queued_files.

(** ** What the replayer reports *)

Section Report.
Context {M L : Type}.
Variables (load : L -> option M) (is_start : M -> bool).

(** For each line its number, counted from 1, and the number of lines, then its message, if it has one. *)
Fixpoint line_reports (total i : nat) (ls : list L) : list (replay_output M) :=
  match ls with
  | [] => []
  | l :: ls => Status (i + 1) total false :: map Msg (content load is_start [l]) ++ line_reports total (i + 1) ls
  end.

(** What is published for a file of which k lines are replayed: the number of its lines, the reports
    of the lines, the number of lines replayed, and the number of messages published. *)
Definition report (f : list L) (k : nat) : list (replay_output M) :=
  Status 0 (length f) false :: line_reports (length f) 0 (firstn k f) ++
  [Status k (length f) true; Total (length (content load is_start (firstn k f)))].

Definition opening (f : list L) (k : nat) : list (replay_output M) :=
  Status 0 (length f) false :: line_reports (length f) 0 (firstn k f).

Definition tail_at (s : replayer L) (tail : list (replay_output M)) (files : list (list L)) : Prop :=
  match at_ s with
  | Idle => tail = []
  | Announced f => tail = opening f 0 /\ In f files
  | AtLine f rest i pub | Paused f rest i pub | Woken f rest i pub =>
      tail = opening f i /\ In f files /\ rest = skipn i f /\ i <= length f /\ pub = length (content load is_start (firstn i f))
  | Sending f l rest i pub =>
      tail = opening f i ++ [Status (i + 1) (length f) false] /\ In f files /\ l :: rest = skipn i f /\ i <= length f /\
      pub = length (content load is_start (firstn i f))
  | Ending f i pub => tail = opening f i /\ In f files /\ i <= length f /\ pub = length (content load is_start (firstn i f))
  | Totalling pub => exists f i, tail = opening f i ++ [Status i (length f) true] /\ In f files /\ i <= length f /\
                                 pub = length (content load is_start (firstn i f))
  end.

Definition full_at (s : replayer L) (tail : list (replay_output M)) : Prop :=
  match at_ s with
  | Ending f i _ => i = length f
  | Totalling _ => forall f i, tail = opening f i ++ [Status i (length f) true] -> i = length f
  | _ => True
  end.

Definition RInv (f0 : option (list L)) (h : list (replay_event L)) (s : replayer L) (out : list (replay_output M)) : Prop :=
  exists (taken : list (list L * nat)) (tail : list (replay_output M)),
    rev out = flat_map (fun x => report (fst x) (snd x)) taken ++ tail /\
    tail_at s tail (queued f0 h) /\
    (forall f, In f (replay_files s) -> In f (queued f0 h)) /\
    (forall f k, In (f, k) taken -> In f (queued f0 h) /\ k <= length f) /\
    (no_stop h -> stop s = false /\ (forall f k, In (f, k) taken -> k = length f) /\ full_at s tail).

Lemma line_reports_snoc total ls l : forall i,
  line_reports total i (ls ++ [l]) =
  line_reports total i ls ++ Status (i + length ls + 1) total false :: map Msg (content load is_start [l]).
Proof.
  induction ls as [|x ls IH]; intros i; cbn [app line_reports length].
  - rewrite app_nil_r, Nat.add_0_r. reflexivity.
  - rewrite IH, <- app_assoc. replace (i + S (length ls) + 1) with (i + 1 + length ls + 1) by lia. reflexivity.
Qed.

Lemma opening_inj f i g j : i <= length f -> j <= length g ->
  opening f i ++ [Status i (length f) true] = opening g j ++ [Status j (length g) true] -> i = j /\ length f = length g.
Proof.
  intros _ _ E. apply (f_equal (@rev _)) in E. rewrite !rev_app_distr in E. cbn [rev app] in E. injection E as E1 E2 _. auto.
Qed.

Lemma In_queued_cons (f0 : option (list L)) e h f : In f (queued f0 h) -> In f (queued f0 (e :: h)).
Proof. intros Hi. rewrite queued_cons. apply in_or_app. left. exact Hi. Qed.

Lemma tail_at_mono s tail a b : (forall f, In f a -> In f b) -> tail_at s tail a -> tail_at s tail b.
Proof.
  intros Hab. unfold tail_at. destruct (at_ s); try tauto.
  - intros (H1 & H2). auto.
  - intros (H1 & H2 & H3). auto.
  - intros (H1 & H2 & H3). auto.
  - intros (H1 & H2 & H3). auto.
  - intros (H1 & H2 & H3). auto.
  - intros (H1 & H2 & H3). auto.
  - intros (f & i & H1 & H2 & H3). exists f, i. auto.
Qed.

Lemma go_on_report f0 h s out s' o f rest i pub taken :
  rev out = flat_map (fun x => report (fst x) (snd x)) taken ++ opening f i -> In f (queued f0 h) ->
  rest = skipn i f -> i <= length f -> pub = length (content load is_start (firstn i f)) ->
  (forall f, In f (replay_files s) -> In f (queued f0 h)) ->
  (forall f k, In (f, k) taken -> In f (queued f0 h) /\ k <= length f) ->
  (no_stop h -> stop s = false /\ (forall f k, In (f, k) taken -> k = length f)) ->
  go_on s f rest i pub = (s', o) -> RInv f0 (Tick :: h) s' (rev o ++ out).
Proof.
  intros Eo Hf Er Li Ep Hq Ht N G. unfold go_on in G.
  assert (Hq' : forall g, In g (queued f0 h) -> In g (queued f0 (Tick :: h))) by (intros g; apply In_queued_cons).
  destruct rest as [|l rest].
  - injection G as <- <-. exists taken, (opening f i). split; [cbn; exact Eo|]. split; [cbn; auto|]. split; [cbn; auto|].
    split; [intros g k Hg; destruct (Ht g k Hg); auto|]. intros Ns. apply no_stop_cons in Ns. destruct (N Ns) as [N1 N2].
    split; [exact N1|]. split; [exact N2|]. cbn. symmetry in Er. apply (f_equal (@length L)) in Er. rewrite skipn_length in Er. cbn in Er. lia.
  - destruct (stop s) eqn:St; injection G as <- <-.
    + exists taken, (opening f i). split; [cbn; exact Eo|]. split; [cbn; auto|]. split; [cbn; auto|].
      split; [intros g k Hg; destruct (Ht g k Hg); auto|]. intros Ns. apply no_stop_cons in Ns. destruct (N Ns) as [N1 N2]. discriminate.
    + exists taken, (opening f i ++ [Status (i + 1) (length f) false]).
      split; [rewrite rev_app_distr, rev_involutive, Eo, <- app_assoc; reflexivity|].
      split; [cbn; auto 10|]. split; [cbn; auto|].
      split; [intros g k Hg; destruct (Ht g k Hg); auto|]. intros Ns. apply no_stop_cons in Ns. destruct (N Ns) as [N1 N2].
      split; [reflexivity|]. split; [exact N2|]. exact I.
Qed.

Lemma report_invariant f0 h s out : replay_after load is_start f0 h s out -> RInv f0 h s out.
Proof.
  induction 1 as [|h s out e s' o A (taken & tail & Eo & Ta & Hq & Ht & N) S].
  - exists [], []. split; [reflexivity|]. split; [reflexivity|]. split; [unfold queued; cbn; destruct f0; cbn; tauto|].
    split; [intros f k []|]. intros _. split; [reflexivity|]. split; [intros f k []|exact I].
  - assert (Hq' : forall g, In g (queued f0 h) -> In g (queued f0 (e :: h))) by (intros g; apply In_queued_cons).
    assert (Ht' : forall f k, In (f, k) taken -> In f (queued f0 (e :: h)) /\ k <= length f) by (intros g k Hg; destruct (Ht g k Hg); auto).
    destruct e as [f|b|b|]; cbn [replay_step] in S.
    + injection S as <- <-. exists taken, tail. split; [exact Eo|]. split; [eapply tail_at_mono; [|exact Ta]; auto|].
      split; [|split; [exact Ht'|]].
      * cbn [replay_files]. intros g Hg. apply in_app_or in Hg. destruct Hg as [Hg|Hg]; [auto|]. rewrite queued_cons. apply in_or_app. auto.
      * intros Ns. apply no_stop_cons in Ns. exact (N Ns).
    + assert (E : exists r p, s' = Replayer (replay_files s) r (stop s) p /\ o = [] /\ (p = at_ s \/ exists f rest i pub, at_ s = Paused f rest i pub /\ p = Woken f rest i pub)).
      { destruct b; injection S as <- <-; [eauto 10|]. do 2 eexists. split; [reflexivity|]. split; [reflexivity|]. destruct (at_ s); eauto 10. }
      destruct E as (r & p & -> & -> & Ep). exists taken, tail. split; [exact Eo|].
      assert (Ta' : tail_at (Replayer (replay_files s) r (stop s) p) tail (queued f0 h)).
      { unfold tail_at in *. cbn [at_]. destruct Ep as [->|(f & rest & i & pub & Ea & ->)]; [exact Ta|]. rewrite Ea in Ta. exact Ta. }
      split; [eapply tail_at_mono; [|exact Ta']; auto|]. split; [cbn; auto|]. split; [exact Ht'|].
      intros Ns. apply no_stop_cons in Ns. destruct (N Ns) as (N1 & N2 & N3). split; [exact N1|]. split; [exact N2|].
      unfold full_at in *. cbn [at_]. destruct Ep as [->|(f & rest & i & pub & Ea & ->)]; [exact N3|exact I].
    + injection S as <- <-. exists taken, tail. split; [exact Eo|]. split; [eapply tail_at_mono; [|exact Ta]; auto|].
      split; [cbn; destruct b; [intros g []|auto]|]. split; [exact Ht'|]. intros Ns. exfalso. apply (Ns b). left. reflexivity.
    + unfold tick in S. unfold tail_at in Ta. destruct (at_ s) as [|f|f rest i pub|f rest i pub|f rest i pub|f l rest i pub|f i pub|pub] eqn:Ea.
      * destruct (replay_files s) as [|f fs] eqn:Ef; [discriminate|]. injection S as <- <-. subst tail.
        exists taken, (opening f 0). split; [cbn [rev app]; rewrite Eo, app_nil_r; reflexivity|].
        split; [cbn; split; [reflexivity|]; apply Hq'; apply Hq; left; reflexivity|].
        split; [cbn; intros g Hg; apply Hq'; apply Hq; right; exact Hg|]. split; [exact Ht'|].
        intros Ns. apply no_stop_cons in Ns. destruct (N Ns) as (N1 & N2 & N3). split; [exact N1|]. split; [exact N2|exact I].
      * destruct Ta as (-> & Hf). injection S as <- <-. exists taken, (opening f 0). split; [exact Eo|].
        split; [cbn; split; [reflexivity|]; split; [auto|]; split; [reflexivity|]; split; [lia|reflexivity]|].
        split; [cbn; auto|]. split; [exact Ht'|]. intros Ns. apply no_stop_cons in Ns. destruct (N Ns) as (N1 & N2 & N3).
        split; [reflexivity|]. split; [exact N2|exact I].
      * destruct Ta as (-> & Hf & Er & Li & Ep).
        assert (N' : no_stop h -> stop s = false /\ (forall f k, In (f, k) taken -> k = length f)) by (intros Ns; destruct (N Ns) as (N1 & N2 & _); auto).
        destruct rest as [|l rest].
        -- injection S as <- <-. eapply (go_on_report f0 h s out _ [] f [] i pub taken); eauto.
        -- destruct (running s).
           ++ assert (G : go_on s f (l :: rest) i pub = (s', o)) by congruence. eapply go_on_report; eauto.
           ++ injection S as <- <-. exists taken, (opening f i). split; [exact Eo|]. split; [cbn; auto 10|]. split; [cbn; auto|].
              split; [exact Ht'|]. intros Ns. apply no_stop_cons in Ns. destruct (N' Ns) as (N1 & N2). split; [exact N1|]. split; [exact N2|exact I].
      * discriminate.
      * destruct Ta as (-> & Hf & Er & Li & Ep).
        assert (N' : no_stop h -> stop s = false /\ (forall f k, In (f, k) taken -> k = length f)) by (intros Ns; destruct (N Ns) as (N1 & N2 & _); auto).
        assert (G : go_on s f rest i pub = (s', o)) by congruence. eapply go_on_report; eauto.
      * destruct Ta as (-> & Hf & Er & Li & Ep).
        assert (Li' : i + 1 <= length f) by (apply (f_equal (@length L)) in Er; rewrite skipn_length in Er; cbn in Er; lia).
        assert (Ei : firstn (i + 1) f = firstn i f ++ [l] /\ rest = skipn (i + 1) f).
        { clear -Er. revert i Er. induction f as [|x f IH]; intros [|i] Er; cbn in Er; try discriminate; [injection Er as -> ->; split; reflexivity|].
          destruct (IH i Er) as (E1 & E2). cbn [Nat.add firstn skipn app]. rewrite E1. split; [reflexivity|exact E2]. }
        destruct Ei as (Ef & Es).
        assert (Eop : opening f (i + 1) = (opening f i ++ [Status (i + 1) (length f) false]) ++ map Msg (content load is_start [l])).
        { unfold opening. rewrite Ef, line_reports_snoc, firstn_length_le by exact Li. cbn [app Nat.add]. rewrite <- !app_assoc. reflexivity. }
        assert (Ec : content load is_start (firstn (i + 1) f) = content load is_start (firstn i f) ++ content load is_start [l]).
        { rewrite Ef. unfold content. apply flat_map_app. }
        assert (Go : s' = Replayer (replay_files s) (running s) (stop s) (AtLine f rest (i + 1) (length (content load is_start (firstn (i + 1) f)))) /\
                     o = map Msg (content load is_start [l])).
        { rewrite Ec, app_length, <- Ep. unfold content at 1 2. cbn [flat_map]. rewrite app_nil_r.
          destruct (load l) as [m|]; [destruct (is_start m)|]; injection S as <- <-; cbn; rewrite ?Nat.add_0_r; auto. }
        destruct Go as (-> & ->). exists taken, (opening f (i + 1)).
        split; [rewrite rev_app_distr, rev_involutive, Eo, Eop, <- app_assoc; reflexivity|].
        split; [cbn; auto 10|]. split; [cbn; auto|]. split; [exact Ht'|].
        intros Ns. apply no_stop_cons in Ns. destruct (N Ns) as (N1 & N2 & _). split; [exact N1|]. split; [exact N2|exact I].
      * destruct Ta as (-> & Hf & Li & Ep). injection S as <- <-. exists taken, (opening f i ++ [Status i (length f) true]).
        split; [cbn [rev app]; rewrite Eo, <- app_assoc; reflexivity|]. split; [cbn; exists f, i; auto|]. split; [cbn; auto|]. split; [exact Ht'|].
        intros Ns. apply no_stop_cons in Ns. destruct (N Ns) as (N1 & N2 & N3). split; [exact N1|]. split; [exact N2|].
        unfold full_at in N3. rewrite Ea in N3. unfold full_at. cbn [at_]. intros g j E. apply (f_equal (@rev _)) in E. rewrite !rev_app_distr in E. cbn [rev app] in E.
        injection E as E1 E2 _. congruence.
      * destruct Ta as (f & i & -> & Hf & Li & Ep). injection S as <- <-. exists (taken ++ [(f, i)]), [].
        split; [cbn [rev app]; rewrite Eo, flat_map_app, !app_nil_r, <- app_assoc; cbn [flat_map fst snd]; unfold report, opening; rewrite Ep, app_nil_r; cbn [app]; rewrite <- !app_assoc; reflexivity|].
        split; [reflexivity|]. split; [cbn; auto|].
        split; [intros g j J; apply in_app_or in J; destruct J as [J|[J|[]]]; [exact (Ht' g j J)|injection J as <- <-; auto]|].
        intros Ns. apply no_stop_cons in Ns. destruct (N Ns) as (N1 & N2 & N3). split; [exact N1|]. split; [|exact I].
        intros g j J. apply in_app_or in J. destruct J as [J|[J|[]]]; [exact (N2 g j J)|]. injection J as <- <-.
        unfold full_at in N3. rewrite Ea in N3. apply (N3 f i eq_refl).
Qed.
End Report.

(** C57.  What the replayer publishes is, file after file: the number of lines; for every line replayed
    its number and then its message, if any; the number of lines replayed, with the mark that it is done;
    and how many messages there were.  All lines are replayed unless it is told to stop. *)
Theorem C57_status_tells_the_progress :
  forall M L (load : L -> option M) is_start f0 (h : list (replay_event L)) s out,
    replay_after load is_start f0 h s out ->
    exists (taken : list (list L * nat)) tail,
      rev out = flat_map (fun x => report load is_start (fst x) (snd x)) taken ++ tail /\
      (forall f k, In (f, k) taken -> In f (queued f0 h) /\ k <= length f /\ ((forall b, ~ In (DoStop b) h) -> k = length f)) /\
      (tail = [] \/ exists f k more, In f (queued f0 h) /\ k <= length f /\ report load is_start f k = tail ++ more) /\
      (at_ s = Idle -> tail = []).
Proof.
  intros M L load is_start f0 h s out A. destruct (report_invariant _ _ _ _ _ _ A) as (taken & tail & Eo & Ta & Hq & Ht & N).
  exists taken, tail. split; [exact Eo|]. split; [|split].
  - intros f k Hk. destruct (Ht f k Hk) as [H1 H2]. split; [exact H1|]. split; [exact H2|]. intros Ns. apply (N Ns). exact Hk.
  - unfold tail_at in Ta.
    assert (Hop : forall f i, In f (queued f0 h) -> i <= length f -> exists f' k more, In f' (queued f0 h) /\ k <= length f' /\ report load is_start f' k = opening load is_start f i ++ more).
    { intros f i Hf Li. exists f, i. eexists. split; [exact Hf|]. split; [exact Li|]. reflexivity. }
    destruct (at_ s) as [|f|f rest i pub|f rest i pub|f rest i pub|f l rest i pub|f i pub|pub].
    + left. exact Ta.
    + right. destruct Ta as (-> & Hf). apply Hop; [exact Hf|lia].
    + right. destruct Ta as (-> & Hf & _ & Li & _). apply Hop; assumption.
    + right. destruct Ta as (-> & Hf & _ & Li & _). apply Hop; assumption.
    + right. destruct Ta as (-> & Hf & _ & Li & _). apply Hop; assumption.
    + right. destruct Ta as (-> & Hf & Er & Li & _).
      assert (Li' : i + 1 <= length f) by (apply (f_equal (@length L)) in Er; rewrite skipn_length in Er; cbn in Er; lia).
      assert (Ef : firstn (i + 1) f = firstn i f ++ [l]).
      { clear -Er. revert i Er. induction f as [|x f IH]; intros [|i] Er; cbn in Er; try discriminate; [injection Er as -> ->; reflexivity|].
        cbn [Nat.add firstn app]. rewrite (IH i Er). reflexivity. }
      exists f, (i + 1). eexists. split; [exact Hf|]. split; [exact Li'|]. unfold report, opening.
      rewrite Ef, line_reports_snoc, firstn_length_le by exact Li. cbn [Nat.add app]. rewrite <- !app_assoc. cbn [app]. reflexivity.
    + right. destruct Ta as (-> & Hf & Li & _). apply Hop; assumption.
    + right. destruct Ta as (f & i & -> & Hf & Li & _). exists f, i. eexists. split; [exact Hf|]. split; [exact Li|].
      unfold report, opening. cbn [app]. rewrite <- !app_assoc. cbn [app]. reflexivity.
  - intros E. unfold tail_at in Ta. rewrite E in Ta. exact Ta.
Qed.
Print Assumptions C57_status_tells_the_progress.

(** C57.  In any case it publishes, of some of the queued files in their order, the messages of the
    first lines, and nothing else. *)
Theorem C57_stopped_replay_is_cut_short :
  forall M L (load : L -> option M) is_start f0 (h : list (replay_event L)) s out,
    replay_after load is_start f0 h s out ->
    exists taken : list (list L * nat),
      subseq (map fst taken) (queued f0 h) /\
      messages out = flat_map (fun x => content load is_start (firstn (snd x) (fst x))) taken.
Proof.
  intros M L load is_start f0 h s out A. destruct (replay_invariant _ _ _ _ _ _ A) as (taken & cur & Em & _ & _ & Sq & _).
  exists (taken ++ opt cur). split; [|exact Em]. exact (subseq_app_l _ _ _ Sq).
Qed.
Print Assumptions C57_stopped_replay_is_cut_short.

(** C57.  The replayer waits only for a file, or while paused. *)
Theorem C57_replay_goes_on :
  forall M L (load : L -> option M) is_start f0 (h : list (replay_event L)) s out,
    replay_after load is_start f0 h s out ->
    replay_step load is_start s Tick = None ->
    (at_ s = Idle /\ replay_files s = []) \/
    (running s = false /\ forall s' o, replay_step load is_start s (SetPaused false) = Some (s', o) -> replay_step load is_start s' Tick <> None).
Proof.
  intros M L load is_start f0 h s out A T.
  assert (R : forall f rest i pub, at_ s = Paused f rest i pub -> running s = false).
  { clear T. induction A as [|h s out e s' o A IH S]; intros f rest i pub E; [discriminate|]. destruct e as [g|[]|b|]; cbn [replay_step] in S.
    - injection S as <- _. exact (IH _ _ _ _ E).
    - injection S as <- _. reflexivity.
    - injection S as <- _. cbn [at_] in E. destruct (at_ s); discriminate.
    - injection S as <- _. exact (IH _ _ _ _ E).
    - unfold tick, go_on in S. destruct (at_ s) as [|g|g r j p|g r j p|g r j p|g l r j p|g j p|p].
      + destruct (replay_files s); [discriminate|]. injection S as <- _. discriminate.
      + injection S as <- _. discriminate.
      + destruct r; [injection S as <- _; discriminate|]. destruct (running s) eqn:Er; [|injection S as <- _; reflexivity].
        destruct (stop s); injection S as <- _; discriminate.
      + discriminate.
      + destruct r; [injection S as <- _; discriminate|]. destruct (stop s); injection S as <- _; discriminate.
      + destruct (load l) as [m|]; [destruct (is_start m)|]; injection S as <- _; discriminate.
      + injection S as <- _. discriminate.
      + injection S as <- _. discriminate. }
  cbn [replay_step] in T. unfold tick in T. destruct (at_ s) as [|g|g r j p|g r j p|g r j p|g l r j p|g j p|p] eqn:Ea; try discriminate.
  - left. split; [reflexivity|]. destruct (replay_files s); [reflexivity|discriminate].
  - destruct r; [discriminate|]. destruct (running s); discriminate.
  - right. split; [exact (R _ _ _ _ eq_refl)|]. intros s' o S. cbn [replay_step] in S. rewrite Ea in S. injection S as <- <-. discriminate.
  - destruct (load l) as [m|]; [destruct (is_start m)|]; discriminate.
Qed.
Print Assumptions C57_replay_goes_on.

(** C57.  Replaying a file of the logger to its end yields exactly the messages received while the
    file was open, in order. *)
Theorem C57_replay_yields_what_was_received :
  forall P M L (HP : Dec P) (dump : M -> L) load log_start is_start (d : list (P * list L)) (h : list (log_event P M)) s p o ms,
    (forall m, load (dump m) = Some m) -> is_start log_start = true ->
    (forall m, In (Message m) h -> is_start m = false) ->
    log_after dump log_start true d h s -> logged p h = Some (o, ms) ->
    exists ls, get p (disk s) = Some ls /\
      forall hr r out, replay_after load is_start (Some ls) hr r out ->
        (forall b, ~ In (DoStop b) hr) -> (forall f, ~ In (QueueFile f) hr) ->
        (exists rest, ms = messages out ++ rest) /\
        (at_ r = Idle -> replay_files r = [] -> messages out = ms /\ totals out = [length ms]).
Proof.
  intros P M L HP dump load log_start is_start d h s p o ms RT LS NS A E.
  pose proof (C57_log_holds_what_was_received P M L HP dump load log_start is_start d h s p RT LS NS A) as B. rewrite E in B. destruct B as (ls & D & ML).
  exists ls. split; [exact D|]. intros hr r out R N1 N2. destruct (C57_replays_the_queued_files _ _ _ _ _ _ _ _ R N1) as (rest & E1 & E2).
  assert (Q : queued (Some ls) hr = [ls]).
  { clear -N2. unfold queued. cbn [app]. f_equal. assert (N : forall f, ~ In (QueueFile f) (rev hr)) by (intros f I; apply in_rev in I; exact (N2 f I)).
    induction (rev hr) as [|e l IH]; [reflexivity|]. cbn [flat_map]. rewrite IH by (intros f I; apply (N f); right; exact I).
    destruct e as [f|b|b|]; try reflexivity. exfalso. apply (N f). left. reflexivity. }
  assert (C : content load is_start ls = ms).
  { clear -ML. revert ms ML. induction ls as [|l ls IH]; intros ms ML; cbn [message_log] in ML; [injection ML as <-; reflexivity|]. unfold content. cbn [flat_map].
    destruct (load l) as [m|]; [|discriminate]. destruct (message_log load is_start ls) as [r|]; [|discriminate]. cbn [option_map] in ML. fold (content load is_start ls).
    rewrite (IH r eq_refl). destruct (is_start m); injection ML as <-; reflexivity. }
  rewrite Q in *. cbn [flat_map map] in *. rewrite app_nil_r, C in *. split; [eauto|]. intros I F. destruct (E2 I F) as (-> & T). rewrite app_nil_r in E1. auto.
Qed.
Print Assumptions C57_replay_yields_what_was_received.

(** ** Cases: lines are numbers, 0 is LogStart, 9 cannot be read. *)

Definition case_load (l : nat) : option nat := if Nat.eqb l 9 then None else Some l.
Definition case_start (m : nat) : bool := Nat.eqb m 0.

Fixpoint replay_run (f0 : option (list nat)) (h : list (replay_event nat)) : option (replayer nat * list (replay_output nat)) :=
  match h with
  | [] => Some (new_replayer f0, [])
  | e :: h => match replay_run f0 h with
              | Some (s, out) => match replay_step case_load case_start s e with Some (s', o) => Some (s', rev o ++ out) | None => None end
              | None => None
              end
  end.

Lemma replay_run_after f0 h : forall s out, replay_run f0 h = Some (s, out) -> replay_after case_load case_start f0 h s out.
Proof.
  induction h as [|e h IH]; intros s out E; cbn [replay_run] in E; [injection E as <- <-; constructor|].
  destruct (replay_run f0 h) as [[s0 out0]|]; [|discriminate]. destruct (replay_step case_load case_start s0 e) as [[s1 o]|] eqn:S; [|discriminate].
  injection E as <- <-. eapply replay_after_event; [apply IH; reflexivity|exact S].
Qed.

Example C57_case_replay :
  exists s out, replay_after case_load case_start (Some [0; 4; 9; 5]) (repeat Tick 22 ++ [QueueFile [0; 6]]) s out /\
    at_ s = Idle /\ replay_files s = [] /\ messages out = [4; 5; 6] /\ totals out = [2; 1].
Proof.
  do 2 eexists. split; [apply replay_run_after; vm_compute; reflexivity|].
  split; [reflexivity|]. split; [reflexivity|]. split; reflexivity.
Qed.

(** C57 finding: "Send False to reset to the beginning of the current file" (messagereplay.py:86-89):
    the current file is not begun again, it is left unfinished. *)
Theorem C57_stop_does_not_rewind_refuted :
  exists h s out, replay_after case_load case_start (Some [0; 4; 5]) h s out /\
    h = repeat Tick 3 ++ [DoStop false] ++ repeat Tick 6 /\
    at_ s = Idle /\ replay_files s = [] /\ messages out = [4].
Proof.
  exists (repeat Tick 3 ++ [DoStop false] ++ repeat Tick 6). do 2 eexists. split; [apply replay_run_after; vm_compute; reflexivity|].
  split; [reflexivity|]. split; [reflexivity|]. split; reflexivity.
Qed.
Print Assumptions C57_stop_does_not_rewind_refuted.

(** C57 finding: pausing again right after resuming lets a line through. *)
Theorem C57_resume_then_pause_leaks_one_refuted :
  exists h s out, replay_after case_load case_start (Some [4; 5]) h s out /\
    h = [Tick; Tick; SetPaused true; SetPaused false; Tick; Tick; Tick; SetPaused true] /\ messages out = [4].
Proof.
  exists [Tick; Tick; SetPaused true; SetPaused false; Tick; Tick; Tick; SetPaused true]. do 2 eexists. split; [apply replay_run_after; vm_compute; reflexivity|].
  split; reflexivity.
Qed.
Print Assumptions C57_resume_then_pause_leaks_one_refuted.
