(* C42: profiling trace streams. *)

From Coq Require Import List Arith Bool Lia.
From Verif Require Import Dict TraceStreamModel TraceStreamSpec TraceStreamProofs.
Import ListNotations.

(** C42.  What a subscriber has been sent of a process is a selection of the samples that
    process pushed: in the order pushed, none twice. *)
Theorem C42_in_order_at_most_once :
  forall (A : Type) limit (h : list (sop A)) p r,
    0 < limit -> lawful h ->
    exists ns,
      increasing ns /\ (forall n, In n ns -> n <= length (sent p h)) /\
      received p r (after limit h) = at_positions (sent p h) ns.
Proof.
  intros A limit h p r P L. destruct (received_positions limit P h p r L) as (ns & I & B & E).
  exists ns. split; [exact I|]. split; [|exact E]. intros n H. etransitivity; [apply B; exact H|apply place_sent_le].
Qed.
Print Assumptions C42_in_order_at_most_once.

(** C42.  Each poll delivers, of each connected process the subscriber asked for, the
    samples that come after the last one delivered or passed over, as far as they are
    still retained and up to the maximum; of other processes, nothing. *)
Theorem C42_each_poll :
  forall (A : Type) limit (h : list (sop A)) p r c,
    0 < limit -> lawful (Poll r :: h) -> asked r h = Some c ->
    received p r (after limit (Poll r :: h)) =
    received p r (after limit h) ++
    (if connected p h && match sc_processes c with Some l => mem p l | None => true end
     then firstn (Nat.max 1 (sc_max c))
                 (skipn (Nat.max (place limit p r h) (length (sent p h) - limit)) (sent p h))
     else []).
Proof.
  intros A limit h p r c P L E. rewrite (received_step limit P) by exact L. rewrite E, Nat.eqb_refl. reflexivity.
Qed.
Print Assumptions C42_each_poll.

(** C42.  A subscriber that is never more than the buffer's length behind misses nothing:
    what it has is a beginning of what was pushed, and the next poll continues it. *)
Theorem C42_complete_if_it_keeps_up :
  forall (A : Type) limit (h : list (sop A)) p r c,
    0 < limit -> lawful (Poll r :: h) -> asked r h = Some c -> lets_through c p ->
    connected p h = true ->
    (forall later h', Poll r :: h = later ++ Poll r :: h' ->
       length (sent p h') - length (received p r (after limit h')) <= limit) ->
    let got := received p r (after limit h) in
    got = firstn (length got) (sent p h) /\
    received p r (after limit (Poll r :: h)) =
      got ++ firstn (Nat.max 1 (sc_max c)) (skipn (length got) (sent p h)).
Proof.
  intros A limit h p r c P L E T C K got.
  assert (G : got = firstn (place limit p r h) (sent p h)).
  { apply received_keeps_up; [exact P|exact (proj1 L)|]. intros later h' Eh. apply (K (Poll r :: later)). rewrite Eh. reflexivity. }
  pose proof (place_sent_le limit p r h) as PL.
  assert (Lg : length got = place limit p r h) by (rewrite G, firstn_length; lia).
  split; [rewrite Lg; exact G|].
  rewrite (C42_each_poll A limit h p r c P L E). fold got. rewrite C.
  assert (M : match sc_processes c with Some l => mem p l | None => true end = true).
  { unfold lets_through in T. destruct (sc_processes c); [apply mem_In; exact T|reflexivity]. }
  rewrite M. cbn [andb]. rewrite Lg.
  specialize (K [] h eq_refl). fold got in K. rewrite Lg in K.
  replace (Nat.max (place limit p r h) (length (sent p h) - limit)) with (place limit p r h) by lia. reflexivity.
Qed.
Print Assumptions C42_complete_if_it_keeps_up.

(** C42.  A subscriber that named processes is sent nothing of any other. *)
Theorem C42_only_what_was_asked_for :
  forall (A : Type) limit (h : list (sop A)) p r c,
    0 < limit -> lawful h -> asked r h = Some c -> ~ lets_through c p ->
    received p r (after limit h) = [].
Proof.
  intros A limit h p r c P L. revert c. induction h as [|o h IH]; intros c E N; [discriminate|].
  rewrite (received_step limit P) by exact L. destruct L as [L Lo].
  destruct o; cbn [asked] in E; try (rewrite (IH L c E N); reflexivity).
  - rewrite app_nil_r. destruct (Nat.eqb_spec r0 r) as [->|D]; [|apply (IH L c E N)].
    pose proof (Inv_after limit P h L) as (_ & _ & _ & R). specialize (R r). unfold received.
    destruct (get r (sv_readers (after limit h))); [destruct R; congruence|reflexivity].
  - rewrite (IH L c E N), E.
    replace (chosen c p h) with false; [rewrite andb_false_r; reflexivity|].
    unfold chosen, lets_through in *. destruct (sc_processes c); [|contradiction N; exact I].
    apply mem_false in N. rewrite N, andb_false_r. reflexivity.
Qed.
Print Assumptions C42_only_what_was_asked_for.

(** Two processes; a subscriber to the first only, two samples at a time, with a buffer of three. *)
Definition polls : list (sop nat) :=
  [Poll 7; Update 1 [14; 15; 16; 17]; Poll 7; Update 2 [20]; Update 1 [11; 12; 13]; Subscribe 7 (mkStream 2 (Some [1]) false);
   Connect 2; Connect 1].

Example C42_case :
  lawful polls /\ asked 7 polls = Some (mkStream 2 (Some [1]) false) /\
  sent 1 polls = [11; 12; 13; 14; 15; 16; 17] /\
  received 1 7 (after 3 polls) = [11; 12; 15; 16] /\
  received 1 7 (after 3 (Poll 7 :: polls)) = [11; 12; 15; 16; 17] /\
  received 2 7 (after 3 polls) = [].
Proof.
  split; [|vm_compute; auto 10].
  cbn. repeat split; try discriminate; intros H; repeat (destruct H as [H|H]; [discriminate H|]); exact H.
Qed.

(** With a longer buffer it keeps up. *)
Example C42_keeps_up_case :
  lawful (Poll 7 :: polls) /\ connected 1 polls = true /\
  (forall later h', Poll 7 :: polls = later ++ Poll 7 :: h' ->
       length (sent 1 h') - length (received 1 7 (after 10 h')) <= 10) /\
  received 1 7 (after 10 (Poll 7 :: polls)) = [11; 12; 13; 14; 15; 16].
Proof.
  split; [split; [exact (proj1 C42_case)|cbn; discriminate]|]. split; [reflexivity|]. split; [|vm_compute; reflexivity].
  intros later h' E.
  assert (K : length (sent 1 h') <= 7).
  { change 7 with (length (sent 1 (Poll 7 :: polls))). rewrite E.
    clear E. induction later as [|o later IH]; cbn; [lia|]. destruct o; auto.
    destruct (p =? 1); [rewrite app_length; lia|exact IH]. }
  lia.
Qed.
