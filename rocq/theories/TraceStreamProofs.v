(* Proofs about profiling trace streams (C42). *)

From Coq Require Import List Arith Bool Lia.
From Verif Require Import Dict TraceStreamModel TraceStreamSpec.
Import ListNotations.

Section Proofs.
Context {A : Type} (limit : nat).

(** Samples numbered from k+1. *)
Definition num (k : nat) (l : list A) : list (nat * A) := combine (seq (S k) (length l)) l.

Lemma num_cons k x l : num k (x :: l) = (S k, x) :: num (S k) l.
Proof. reflexivity. Qed.

Lemma num_length k l : length (num k l) = length l.
Proof. unfold num. rewrite combine_length, seq_length. lia. Qed.

Lemma num_app k l l' : num k (l ++ l') = num k l ++ num (k + length l) l'.
Proof.
  revert k; induction l as [|x l IH]; intros k; cbn [app length].
  - rewrite Nat.add_0_r. reflexivity.
  - rewrite !num_cons, IH. cbn [app]. do 3 f_equal. lia.
Qed.

Lemma skipn_num d k l : d <= length l -> skipn d (num k l) = num (k + d) (skipn d l).
Proof.
  revert k l; induction d as [|d IH]; intros k l L; [rewrite Nat.add_0_r; reflexivity|].
  destruct l as [|x l]; [cbn in L; lia|]. rewrite num_cons. cbn [skipn]. rewrite IH by (cbn in L; lia).
  f_equal. lia.
Qed.

Lemma skipn_add {B} a b (l : list B) : skipn a (skipn b l) = skipn (b + a) l.
Proof.
  revert b; induction l as [|x l IH]; intros [|b]; cbn; auto. destruct a; reflexivity.
Qed.

Lemma skipn_app_le {B} n (l l' : list B) : n <= length l -> skipn n (l ++ l') = skipn n l ++ l'.
Proof. intros L. rewrite skipn_app. replace (n - length l) with 0 by lia. reflexivity. Qed.

(** The buffer of a process that has sent [s]. *)
Definition buffer (s : list A) : list (nat * A) := num (length s - limit) (skipn (length s - limit) s).

Lemma append_bounded_buffer s x : append_bounded limit (buffer s) (S (length s), x) = buffer (s ++ [x]).
Proof.
  unfold append_bounded, buffer. set (n := length s). set (k := n - limit).
  assert (E : num k (skipn k s) ++ [(S n, x)] = num k (skipn k (s ++ [x]))).
  { rewrite skipn_app_le by (unfold k, n; lia). rewrite num_app. f_equal.
    rewrite skipn_length. unfold num. cbn. replace (k + (length s - k)) with n by (unfold k, n; lia). reflexivity. }
  rewrite E, num_length, skipn_length, app_length. cbn [length]. fold n.
  rewrite skipn_num by (rewrite skipn_length, app_length; cbn; fold n; lia).
  rewrite skipn_add. replace (k + (n + 1 - k - limit)) with (n + 1 - limit) by (unfold k; lia). reflexivity.
Qed.

Lemma append_samples_buffer xs : forall s,
  append_samples limit (length s) (buffer s) xs = (length (s ++ xs), buffer (s ++ xs)).
Proof.
  induction xs as [|x xs IH]; intros s; cbn [append_samples]; [rewrite app_nil_r; reflexivity|].
  rewrite append_bounded_buffer. replace (S (length s)) with (length (s ++ [x])) by (rewrite app_length; cbn; lia).
  rewrite IH, <- app_assoc. reflexivity.
Qed.

Lemma newer_num l : forall room k last,
  k <= last ->
  newer last room (num k l) =
  (last + Nat.min (Nat.max 1 room) (k + length l - last), firstn (Nat.max 1 room) (skipn (last - k) l)).
Proof.
  induction l as [|x l IH]; intros room k last L.
  - cbn. rewrite skipn_nil, firstn_nil. f_equal. lia.
  - rewrite num_cons. cbn [newer]. destruct (Nat.leb_spec (S k) last) as [G|G].
    + rewrite IH by lia. f_equal; [cbn [length]; lia|].
      replace (last - k) with (S (last - S k)) by lia. reflexivity.
    + assert (last = k) by lia. subst last. rewrite Nat.sub_diag. cbn [skipn length].
      destruct room as [|[|room]].
      * cbn [Nat.max firstn]. f_equal; lia.
      * cbn [Nat.max firstn]. f_equal; lia.
      * rewrite IH by lia. rewrite Nat.sub_diag. cbn [skipn].
        replace (Nat.max 1 (S room)) with (S room) by lia. f_equal. lia.
Qed.

(** What a tick does for one process. *)
Definition tick (c : stream_control) (bufs : list (nat * list (nat * A))) (p last : nat) : nat * list A :=
  match get p bufs with
  | Some ((oldest, x) :: b) => newer (if last <? oldest - 1 then oldest - 1 else last) (Nat.max 1 (sc_max c)) ((oldest, x) :: b)
  | _ => (last, [])
  end.

Lemma tick_buffer c bufs p last s :
  get p bufs = Some (buffer s) -> last <= length s ->
  let from := Nat.max last (length s - limit) in
  tick c bufs p last =
    (if length s - limit <? length s then from + Nat.min (Nat.max 1 (sc_max c)) (length s - from) else last,
     firstn (Nat.max 1 (sc_max c)) (skipn from s)).
Proof.
  intros G L from. unfold tick. rewrite G. unfold buffer at 1.
  destruct (Nat.ltb_spec (length s - limit) (length s)) as [K|K].
  - destruct (skipn (length s - limit) s) as [|x l] eqn:E.
    { apply (f_equal (@length A)) in E. rewrite skipn_length in E. cbn in E. lia. }
    rewrite num_cons.
    replace (if last <? S (length s - limit) - 1 then S (length s - limit) - 1 else last) with from.
    2:{ unfold from. destruct (Nat.ltb_spec last (S (length s - limit) - 1)); lia. }
    rewrite <- num_cons, <- E, newer_num by (unfold from; lia).
    rewrite skipn_length, skipn_add.
    replace (length s - limit + (length s - (length s - limit)) - from) with (length s - from) by lia.
    replace (length s - limit + (from - (length s - limit))) with from by (unfold from; lia).
    replace (Nat.max 1 (Nat.max 1 (sc_max c))) with (Nat.max 1 (sc_max c)) by lia. reflexivity.
  - assert (E : skipn (length s - limit) s = []) by (apply skipn_all2; lia).
    rewrite E. cbn. f_equal. rewrite skipn_all2 by (unfold from; lia). rewrite firstn_nil. reflexivity.
Qed.

Lemma collect_process_spec c bufs p last batches last' batches' :
  collect_process c bufs p (last, batches) = (last', batches') ->
  (forall q, getd q 0 last' = if dec q p then fst (tick c bufs p (getd p 0 last)) else getd q 0 last) /\
  (forall q, get q batches' = if dec q p
                              then match snd (tick c bufs p (getd p 0 last)) with
                                   | [] => if sc_empty c then Some [] else get p batches
                                   | xs => Some xs end
                              else get q batches).
Proof.
  unfold collect_process, tick. intros E.
  destruct (get p bufs) as [[|[oldest x] b]|] eqn:G.
  - cbn [snd fst]. destruct (sc_empty c); injection E as <- <-; split; intros q; try (destruct (dec q p) as [->|]; reflexivity).
    rewrite get_put. destruct (dec q p); reflexivity.
  - set (l := if getd p 0 last <? oldest - 1 then oldest - 1 else getd p 0 last) in *.
    destruct (newer l (Nat.max 1 (sc_max c)) ((oldest, x) :: b)) as [l' xs] eqn:En. cbn [fst snd].
    assert (K : forall q, getd q 0 (put p l' last) = if dec q p then l' else getd q 0 last)
      by (intros q; unfold getd; rewrite get_put; destruct (dec q p); reflexivity).
    destruct xs as [|y ys]; [destruct (sc_empty c)|]; injection E as <- <-; (split; [exact K|]); intros q;
      rewrite ?get_put; destruct (dec q p) as [->|]; reflexivity.
  - cbn [snd fst]. destruct (sc_empty c); injection E as <- <-; split; intros q; try (destruct (dec q p) as [->|]; reflexivity).
    rewrite get_put. destruct (dec q p); reflexivity.
Qed.

Lemma collect_fold c bufs ps : forall last batches last' batches',
  NoDup ps -> (forall p, In p ps -> get p batches = None) ->
  fold_left (fun acc p => collect_process c bufs p acc) ps (last, batches) = (last', batches') ->
  (forall q, getd q 0 last' = if in_dec dec q ps then fst (tick c bufs q (getd q 0 last)) else getd q 0 last) /\
  (forall q, getd q [] batches' = if in_dec dec q ps then snd (tick c bufs q (getd q 0 last)) else getd q [] batches).
Proof.
  induction ps as [|p ps IH]; intros last batches last' batches' N F E.
  - cbn in E. injection E as <- <-. split; intros q; reflexivity.
  - inversion N as [|? ? N1 N2]; subst. cbn [fold_left] in E.
    destruct (collect_process c bufs p (last, batches)) as [l1 b1] eqn:E1.
    destruct (collect_process_spec _ _ _ _ _ _ _ E1) as [H1 H2].
    assert (F1 : forall q, In q ps -> get q b1 = None).
    { intros q I. rewrite H2. destruct (dec q p) as [->|]; [contradiction|]. apply F. right. exact I. }
    destruct (IH _ _ _ _ N2 F1 E) as [K1 K2].
    split; intros q.
    + rewrite K1, H1.
      destruct (in_dec dec q ps) as [I|I], (in_dec dec q (p :: ps)) as [J|J]; try reflexivity.
      * destruct (dec q p) as [->|]; [contradiction|reflexivity].
      * exfalso. apply J. right. exact I.
      * destruct (dec q p) as [->|D]; [reflexivity|]. destruct J as [->|J]; [congruence|contradiction].
      * destruct (dec q p) as [->|D]; [exfalso; apply J; left; reflexivity|reflexivity].
    + rewrite K2, H1.
      destruct (in_dec dec q ps) as [I|I], (in_dec dec q (p :: ps)) as [J|J]; try reflexivity.
      * destruct (dec q p) as [->|]; [contradiction|reflexivity].
      * exfalso. apply J. right. exact I.
      * unfold getd. rewrite H2. destruct (dec q p) as [->|D].
        -- fold (getd p 0 last). destruct (snd (tick c bufs p (getd p 0 last))); [|reflexivity].
           rewrite F by (left; reflexivity). destruct (sc_empty c); reflexivity.
        -- destruct J as [->|J]; [congruence|contradiction].
      * unfold getd. rewrite H2. destruct (dec q p) as [->|D]; [exfalso; apply J; left; reflexivity|reflexivity].
Qed.

(** ** Histories *)

Lemma after_cons o (h : list (sop A)) : after limit (o :: h) = sstep limit (after limit h) o.
Proof. unfold after, srun. cbn [rev]. rewrite fold_left_app. reflexivity. Qed.

Lemma connected_In p (h : list (sop A)) : connected p h = true -> In (Connect p) h.
Proof.
  induction h as [|o h IH]; cbn; [discriminate|]. destruct o; intros E; auto.
  - destruct (Nat.eqb_spec p0 p) as [->|]; [left; reflexivity|right; apply IH; exact E].
  - destruct (negb (p0 =? p)); [right; apply IH; exact E|discriminate].
Qed.

Lemma lawful_new p (h : list (sop A)) : lawful h -> ~ In (Connect p) h -> sent p h = [].
Proof.
  induction h as [|o h IH]; intros L N; [reflexivity|]. destruct L as [L Lo].
  assert (N' : ~ In (Connect p) h) by (intros I; apply N; right; exact I).
  destruct o; cbn; auto. destruct (Nat.eqb_spec p0 p) as [->|]; auto.
  exfalso. apply N'. apply connected_In. exact Lo.
Qed.

Definition Inv (h : list (sop A)) (s : server A) : Prop :=
  NoDup (sv_connected s) /\
  (forall p, In p (sv_connected s) <-> connected p h = true) /\
  (forall p, if connected p h
             then getd p [] (sv_buffers s) = buffer (sent p h) /\ getd p 0 (sv_seq s) = length (sent p h)
             else get p (sv_buffers s) = None /\ get p (sv_seq s) = None) /\
  (forall r, match get r (sv_readers s) with
             | None => asked r h = None
             | Some rd => asked r h = Some (rd_control rd) /\
                          forall p, getd p 0 (rd_last rd) = place limit p r h /\ place limit p r h <= length (sent p h)
             end).

Lemma buffer_nil : buffer [] = [].
Proof. reflexivity. Qed.

Lemma place_unasked p r (h : list (sop A)) : asked r h = None -> place limit p r h = 0.
Proof.
  induction h as [|o h IH]; cbn; [reflexivity|]. destruct o; auto.
  - destruct (Nat.eqb_spec r0 r); [discriminate|auto].
  - intros E. rewrite E. auto.
Qed.

Lemma place_sent_le p r (h : list (sop A)) : place limit p r h <= length (sent p h).
Proof.
  induction h as [|o h IH]; cbn; [lia|]. destruct o; auto.
  - destruct (p0 =? p); [rewrite app_length; lia|auto].
  - destruct (r0 =? r); [lia|auto].
  - destruct (asked r h) as [c|]; [|auto]. destruct (_ && _); [|auto]. lia.
Qed.

(** The reader's batch at a tick, by the book. *)
Definition slice (c : stream_control) (p r : nat) (h : list (sop A)) : list A :=
  firstn (Nat.max 1 (sc_max c)) (skipn (Nat.max (place limit p r h) (length (sent p h) - limit)) (sent p h)).

Definition chosen (c : stream_control) (p : nat) (h : list (sop A)) : bool :=
  connected p h && match sc_processes c with Some l => mem p l | None => true end.

Lemma In_processes c (h : list (sop A)) s p :
  Inv h s ->
  (In p (stream_processes c s) <->
   match sc_processes c with Some l => In p l | None => connected p h = true end).
Proof.
  intros (_ & I & _). unfold stream_processes. destruct (sc_processes c) as [l|]; [apply nodup_In|apply I].
Qed.

Hypothesis limit_pos : 0 < limit.

Lemma poll_collect h s r rd last batches :
  Inv h s -> get r (sv_readers s) = Some rd -> collect (rd_control rd) (rd_last rd) s = (last, batches) ->
  forall p,
    getd p 0 last = place limit p r (Poll r :: h) /\
    getd p [] batches = if chosen (rd_control rd) p h then slice (rd_control rd) p r h else [].
Proof.
  intros I G E p. pose proof I as (N & C & B & R). specialize (R r). rewrite G in R. destruct R as [Ra Rl].
  specialize (Rl p). destruct Rl as [Rl Rb].
  unfold collect in E. apply collect_fold in E; [|unfold stream_processes; destruct (sc_processes (rd_control rd)); [apply NoDup_nodup|exact N]|intros; reflexivity].
  destruct E as [E1 E2]. rewrite E1, E2. rewrite Rl. clear E1 E2.
  cbn [place]. rewrite Ra, Nat.eqb_refl. cbn [andb]. fold (chosen (rd_control rd) p h).
  set (c := rd_control rd) in *.
  specialize (B p).
  assert (T : tick c (sv_buffers s) p (place limit p r h) =
              if connected p h then
                (Nat.max (place limit p r h) (length (sent p h) - limit) +
                 Nat.min (Nat.max 1 (sc_max c)) (length (sent p h) - Nat.max (place limit p r h) (length (sent p h) - limit)),
                 slice c p r h)
              else (place limit p r h, [])).
  { destruct (connected p h).
    - destruct B as [B _]. destruct (get p (sv_buffers s)) as [b|] eqn:Gb.
      + unfold getd in B. rewrite Gb in B. subst b. rewrite (tick_buffer c _ _ _ _ Gb Rb).
        unfold slice. destruct (Nat.ltb_spec (length (sent p h) - limit) (length (sent p h))); [reflexivity|].
        f_equal. lia.
      + unfold getd in B. rewrite Gb in B. symmetry in B. apply (f_equal (@length _)) in B.
        unfold buffer in B. rewrite num_length, skipn_length in B. cbn [length] in B.
        assert (Z : sent p h = []) by (apply length_zero_iff_nil; lia).
        unfold tick, slice. rewrite Gb, Z in *. cbn in Rb. rewrite skipn_nil, firstn_nil. cbn. f_equal. lia.
    - destruct B as [B _]. unfold tick. rewrite B. reflexivity. }
  rewrite T. unfold chosen.
  destruct (in_dec dec p (stream_processes c s)) as [Ip|Ip]; rewrite (In_processes c h s p I) in Ip.
  - assert (M : match sc_processes c with Some l => mem p l | None => true end = true)
      by (destruct (sc_processes c); [apply mem_In; exact Ip|reflexivity]).
    rewrite M, andb_true_r. destruct (connected p h); split; reflexivity.
  - assert (M : connected p h && match sc_processes c with Some l => mem p l | None => true end = false).
    { destruct (sc_processes c); [apply mem_false in Ip; rewrite Ip; apply andb_false_r|].
      destruct (connected p h); [contradiction|reflexivity]. }
    rewrite M. split; reflexivity.
Qed.

Lemma Inv_after h : lawful h -> Inv h (after limit h).
Proof.
  induction h as [|o h IH]; intros L.
  - split; [constructor|]. split; [intros p; split; [intros []|discriminate]|]. split; intros; cbn; auto.
  - destruct L as [L Lo]. specialize (IH L). rewrite after_cons. set (s := after limit h) in *.
    pose proof IH as (N & C & B & R).
    assert (PS : forall o, (forall q xs, o <> Update q xs) -> forall p, sent p (o :: h) = sent p h)
      by (intros o' K p; destruct o'; try reflexivity; exfalso; eapply K; reflexivity).
    destruct o; cbn [sstep].
    + (* Connect *)
      assert (Np : connected p h = false)
        by (destruct (connected p h) eqn:E; [exfalso; apply Lo; apply connected_In; exact E|reflexivity]).
      assert (Zp : sent p h = []) by (apply lawful_new; auto).
      split; [apply NoDup_sadd; exact N|]. split; [|split; [|exact R]].
      * intros q. cbn [sv_connected connected]. rewrite In_sadd, C. destruct (Nat.eqb_spec p q) as [->|D]; cbn; [tauto|].
        split; [intros [->|H]; [congruence|exact H]|auto].
      * intros q. cbn [sv_buffers sv_seq connected sent]. specialize (B q). destruct (Nat.eqb_spec p q) as [->|D]; cbn [orb]; [|exact B].
        rewrite Np in B. destruct B as [B1 B2]. unfold getd. rewrite B1, B2, Zp. auto.
    + (* Update *)
      unfold trace_update. pose proof (B p) as Bp. rewrite Lo in Bp. destruct Bp as [B1 B2]. rewrite B1, B2.
      rewrite append_samples_buffer.
      split; [exact N|]. split; [exact C|]. split.
      * intros q. cbn [sv_buffers sv_seq connected sent]. specialize (B q). unfold getd. rewrite !get_put.
        destruct (dec q p) as [->|D]; [rewrite Lo, Nat.eqb_refl; auto|].
        replace (p =? q) with false by (symmetry; apply Nat.eqb_neq; congruence). exact B.
      * intros r. cbn [sv_readers asked]. specialize (R r). destruct (get r (sv_readers s)) as [rd|]; [|exact R].
        destruct R as [R1 R2]. split; [exact R1|]. intros q. destruct (R2 q) as [R3 R4]. split; [exact R3|].
        apply (place_sent_le q r (Update p xs :: h)).
    + (* Leave *)
      split; [apply NoDup_sdel; exact N|]. split; [|split; [|exact R]].
      * intros q. cbn [sv_connected connected]. rewrite In_sdel, C. destruct (Nat.eqb_spec p q) as [->|D]; cbn; [|intuition congruence].
        split; [intros [K _]; congruence|discriminate].
      * intros q. cbn [sv_buffers sv_seq connected sent]. specialize (B q). unfold getd. rewrite !get_del.
        destruct (Nat.eqb_spec p q) as [->|D]; cbn [negb andb].
        -- destruct (dec q q); [auto|congruence].
        -- destruct (dec q p) as [E|E]; [congruence|]. exact B.
    + (* Subscribe *)
      split; [exact N|]. split; [exact C|]. split; [exact B|].
      intros q. cbn [sv_readers asked]. rewrite get_put. destruct (dec q r) as [->|D].
      * rewrite Nat.eqb_refl. split; [reflexivity|]. intros p. cbn [place sent]. rewrite Nat.eqb_refl. split; [reflexivity|lia].
      * replace (r =? q) with false by (symmetry; apply Nat.eqb_neq; congruence). specialize (R q).
        destruct (get q (sv_readers s)) as [rd|]; [|exact R]. destruct R as [R1 R2]. split; [exact R1|].
        intros p. cbn [place sent]. replace (r =? q) with false by (symmetry; apply Nat.eqb_neq; congruence). apply R2.
    + (* Poll *)
      destruct (get r (sv_readers s)) as [rd|] eqn:G.
      2:{ exfalso. specialize (R r). rewrite G in R. contradiction. }
      destruct (collect (rd_control rd) (rd_last rd) s) as [last batches] eqn:E.
      pose proof (poll_collect h s r rd last batches IH G E) as P.
      split; [exact N|]. split; [exact C|]. split; [exact B|].
      intros q. cbn [sv_readers asked]. rewrite get_put. destruct (dec q r) as [->|D].
      * pose proof (R r) as Rr. rewrite G in Rr. destruct Rr as [R1 _]. split; [exact R1|]. intros p. cbn [rd_last].
        split; [apply P|]. apply (place_sent_le p r (Poll r :: h)).
      * specialize (R q). destruct (get q (sv_readers s)) as [rd'|]; [|exact R]. destruct R as [R1 R2]. split; [exact R1|].
        intros p. cbn [place sent]. rewrite R1. replace (r =? q) with false by (symmetry; apply Nat.eqb_neq; congruence).
        cbn [andb]. apply R2.
Qed.

(** What each event adds to what a subscriber has been sent. *)
Lemma received_step h o p r :
  lawful (o :: h) ->
  received p r (after limit (o :: h)) =
  received p r (after limit h) ++
  match o with
  | Poll q => match asked r h with
              | Some c => if (q =? r) && chosen c p h then slice c p r h else []
              | None => []
              end
  | _ => []
  end.
Proof.
  intros [L Lo]. pose proof (Inv_after h L) as I. rewrite after_cons. set (s := after limit h) in *.
  unfold received. destruct o; cbn [sstep sv_readers]; rewrite ?app_nil_r; try reflexivity.
  - unfold trace_update. destruct (append_samples _ _ _ _). reflexivity.
  - rewrite get_put. destruct (dec r r0) as [->|]; [|reflexivity].
    pose proof I as (_ & _ & _ & R). specialize (R r0). destruct (get r0 (sv_readers s)); [|reflexivity].
    destruct R as [R _]. congruence.
  - pose proof I as (_ & _ & _ & R). specialize (R r0).
    destruct (get r0 (sv_readers s)) as [rd|] eqn:G; [|contradiction].
    destruct (collect (rd_control rd) (rd_last rd) s) as [last batches] eqn:E.
    pose proof (poll_collect h s r0 rd last batches I G E p) as [_ P]. cbn [sv_readers]. rewrite get_put.
    destruct (dec r r0) as [->|D].
    + destruct R as [R _]. rewrite G, R, Nat.eqb_refl. cbn [andb rd_out]. rewrite <- P.
      destruct batches as [|b bs]; [rewrite app_nil_r; reflexivity|].
      rewrite flat_map_app. cbn [flat_map]. rewrite app_nil_r. reflexivity.
    + replace (r0 =? r) with false by (symmetry; apply Nat.eqb_neq; congruence). cbn [andb].
      destruct (asked r h); rewrite app_nil_r; reflexivity.
Qed.

Lemma at_positions_app (l l' : list A) ns :
  (forall n, In n ns -> n <= length l) -> at_positions (l ++ l') ns = at_positions l ns.
Proof.
  induction ns as [|n ns IH]; intros H; [reflexivity|].
  change (at_positions (l ++ l') (n :: ns)) with
    ((match n with 0 => [] | S i => match nth_error (l ++ l') i with Some x => [x] | None => [] end end) ++ at_positions (l ++ l') ns).
  rewrite IH by (intros; apply H; right; auto).
  unfold at_positions at 2. cbn [flat_map]. f_equal. specialize (H n (or_introl eq_refl)). destruct n as [|i]; [reflexivity|].
  rewrite nth_error_app1 by lia. reflexivity.
Qed.

Lemma at_positions_seq (l : list A) m : forall k,
  k + m <= length l -> at_positions l (seq (S k) m) = firstn m (skipn k l).
Proof.
  induction m as [|m IH]; intros k L; [reflexivity|]. cbn [seq at_positions flat_map].
  fold (at_positions l (seq (S (S k)) m)). rewrite IH by lia.
  destruct (nth_error l k) as [x|] eqn:E.
  - assert (K : skipn k l = x :: skipn (S k) l).
    { clear - E. revert k E; induction l as [|y l IH]; intros [|k] E; try discriminate; cbn in *; [congruence|]. apply IH. exact E. }
    rewrite K. reflexivity.
  - apply nth_error_None in E. lia.
Qed.

Lemma increasing_app_seq ns k m : increasing ns -> (forall n, In n ns -> n <= k) -> increasing (ns ++ seq (S k) m).
Proof.
  induction ns as [|n ns IH]; intros I B; cbn [app].
  - clear. revert k; induction m as [|m IH]; intros k; [exact I|]. cbn. split; [|apply (IH (S k))].
    intros j J. apply in_seq in J. lia.
  - destruct I as [I1 I2]. split; [|apply IH; auto; intros; apply B; right; auto].
    intros j J. apply in_app_or in J. destruct J as [J|J]; [auto|]. apply in_seq in J.
    specialize (B n (or_introl eq_refl)). lia.
Qed.

Lemma firstn_min (l : list A) m : firstn m l = firstn (Nat.min m (length l)) l.
Proof.
  destruct (Nat.le_gt_cases m (length l)).
  - rewrite Nat.min_l by lia. reflexivity.
  - rewrite Nat.min_r by lia. rewrite firstn_all, firstn_all2 by lia. reflexivity.
Qed.

Lemma received_positions (h : list (sop A)) p r :
  lawful h ->
  exists ns, increasing ns /\ (forall n, In n ns -> n <= place limit p r h) /\ received p r (after limit h) = at_positions (sent p h) ns.
Proof.
  induction h as [|o h IH]; intros L.
  - exists []. split; [exact I|]. split; [intros n []|reflexivity].
  - destruct (IH (proj1 L)) as (ns & I & B & E). rewrite received_step by exact L. rewrite E.
    assert (K : forall n, In n ns -> n <= length (sent p h))
      by (intros n In_; etransitivity; [apply B; exact In_|apply place_sent_le]).
    destruct o; rewrite ?app_nil_r; try (exists ns; split; [exact I|]; split; [exact B|reflexivity]).
    + exists ns. split; [exact I|]. split; [exact B|]. cbn [sent]. destruct (p0 =? p); [|reflexivity].
      symmetry. apply at_positions_app. exact K.
    + destruct L as [L Lo]. cbn [place sent].
      destruct (Nat.eqb_spec r0 r) as [->|D]; [|exists ns; auto].
      (* subscribing anew: nothing was received before *)
      exists []. split; [exact Logic.I|]. split; [intros n []|]. rewrite <- E.
      pose proof (Inv_after h L) as (_ & _ & _ & R). specialize (R r). unfold received.
      destruct (get r (sv_readers (after limit h))); [destruct R as [R _]; congruence|reflexivity].
    + cbn [place sent]. destruct (asked r h) as [c|]; [|exists ns; rewrite app_nil_r; auto].
      rewrite <- andb_assoc. fold (chosen c p h). destruct ((r0 =? r) && chosen c p h); [|exists ns; rewrite app_nil_r; auto].
      unfold slice. set (from := Nat.max (place limit p r h) (length (sent p h) - limit)).
      pose proof (place_sent_le p r h) as PL. rewrite firstn_min, skipn_length.
      set (m := Nat.min (Nat.max 1 (sc_max c)) (length (sent p h) - from)).
      exists (ns ++ seq (S from) m). split; [|split].
      * apply increasing_app_seq; [exact I|]. intros n In_. specialize (B n In_). unfold from. lia.
      * intros n In_. apply in_app_or in In_. destruct In_ as [In_|In_]; [specialize (B n In_); unfold from; lia|].
        apply in_seq in In_. lia.
      * unfold at_positions. rewrite flat_map_app. f_equal. fold (at_positions (sent p h) (seq (S from) m)).
        symmetry. apply at_positions_seq. unfold m, from. lia.
Qed.

Lemma firstn_add a b (l : list A) : firstn (a + b) l = firstn a l ++ firstn b (skipn a l).
Proof. revert l; induction a as [|a IH]; intros [|x l]; cbn; rewrite ?firstn_nil; try reflexivity. f_equal. apply IH. Qed.

Lemma received_keeps_up (h : list (sop A)) p r :
  lawful h ->
  (forall later h', h = later ++ Poll r :: h' -> length (sent p h') - length (received p r (after limit h')) <= limit) ->
  received p r (after limit h) = firstn (place limit p r h) (sent p h).
Proof.
  induction h as [|o h IH]; intros L K; [reflexivity|].
  rewrite received_step by exact L. rewrite IH; [|exact (proj1 L)|intros later h' E; apply (K (o :: later)); rewrite E; reflexivity].
  pose proof (place_sent_le p r h) as PL.
  destruct o; rewrite ?app_nil_r; try reflexivity.
  - cbn [place sent]. destruct (p0 =? p); [|reflexivity]. rewrite firstn_app.
    replace (place limit p r h - length (sent p h)) with 0 by lia. cbn. rewrite app_nil_r. reflexivity.
  - cbn [place sent]. destruct (Nat.eqb_spec r0 r) as [->|D]; [|reflexivity].
    destruct L as [L Lo]. rewrite place_unasked by exact Lo. reflexivity.
  - cbn [place sent]. destruct (asked r h) as [c|]; [|apply app_nil_r].
    rewrite <- andb_assoc. fold (chosen c p h). destruct (Nat.eqb_spec r0 r) as [->|D]; cbn [andb]; [|apply app_nil_r].
    destruct (chosen c p h); [|apply app_nil_r].
    assert (Kh := K [] h eq_refl).
    rewrite IH in Kh; [|exact (proj1 L)|intros later h' E; apply (K (Poll r :: later)); rewrite E; reflexivity].
    rewrite firstn_length, Nat.min_l in Kh by lia.
    unfold slice. replace (Nat.max (place limit p r h) (length (sent p h) - limit)) with (place limit p r h) by lia.
    rewrite firstn_add. f_equal. rewrite firstn_min, skipn_length. reflexivity.
Qed.

End Proofs.
