(** Lemmas about StreamModel. *)
From Coq Require Import List NArith Arith Bool Lia.
From Coq Require Import Strings.Byte.
From Verif Require Import CodecModel CodecProofs StreamModel.
Import ListNotations.

Lemma run_bind {A B} (r : reader A) (f : A -> reader B) b :
  run (bind r f) b =
  match run r b with
  | Done a rest => run (f a) rest
  | Blocked r' rest => Blocked (bind r' f) rest
  | Failed => Failed
  end.
Proof.
  revert b; induction r as [a| |n k IH]; intros b; cbn [bind run]; try reflexivity.
  destruct (n <=? length b); [apply IH|reflexivity].
Qed.

Lemma run_app {A} (r : reader A) b c :
  run r (b ++ c) =
  match run r b with
  | Done a rest => Done a (rest ++ c)
  | Blocked r' rest => run r' (rest ++ c)
  | Failed => Failed
  end.
Proof.
  revert b; induction r as [a| |n k IH]; intros b; cbn [run]; try reflexivity.
  destruct (Nat.leb_spec n (length b)) as [H|H].
  - rewrite app_length. destruct (Nat.leb_spec n (length b + length c)) as [_|H2]; [|lia].
    rewrite firstn_app, skipn_app. replace (n - length b) with 0 by lia.
    cbn [firstn skipn]. rewrite app_nil_r. apply IH.
  - cbn [run]. reflexivity.
Qed.

Lemma run_rest_le {A} (r : reader A) b :
  match run r b with
  | Done _ rest => length rest <= length b
  | Blocked (ReadN n _) rest => length rest <= length b /\ length rest < n
  | Blocked _ _ => False
  | Failed => True
  end.
Proof.
  revert b; induction r as [a| |n k IH]; intros b; cbn [run]; [lia|exact I|].
  destruct (Nat.leb_spec n (length b)) as [H|H].
  - specialize (IH (firstn n b) (skipn n b)).
    rewrite skipn_length in IH.
    destruct (run (k (firstn n b)) (skipn n b)) as [a rest|[a| |m k'] rest|]; try lia; try tauto.
  - lia.
Qed.

(** A coroutine that will certainly consume at least one byte before returning. *)
Definition productive {A} (r : reader A) : Prop :=
  match r with ReadN (S _) _ => True | _ => False end.

Lemma productive_done {A} (r : reader A) b a rest :
  productive r -> run r b = Done a rest -> length rest < length b.
Proof.
  destruct r as [| |[|n] k]; cbn [productive]; try tauto. intros _.
  cbn [run]. destruct (Nat.leb_spec (S n) (length b)) as [H|H]; [|discriminate].
  intros E. pose proof (run_rest_le (k (firstn (S n) b)) (skipn (S n) b)) as L.
  rewrite E, skipn_length in L. lia.
Qed.

Lemma blocked_productive {A} (r : reader A) b r' rest :
  run r b = Blocked r' rest -> productive r'.
Proof.
  intros E. pose proof (run_rest_le r b) as L. rewrite E in L.
  destruct r' as [| |[|n] k]; cbn [productive]; try tauto. lia.
Qed.

Lemma loop_fuel_enough {M} (body : reader M) : productive body ->
  forall f1 f2 cur buf, productive cur -> length buf < f1 -> length buf < f2 ->
  loop f1 body cur buf = loop f2 body cur buf.
Proof.
  intros Hb f1. induction f1 as [|f1 IH]; intros f2 cur buf Hc H1 H2; [lia|].
  destruct f2 as [|f2]; [lia|]. cbn [loop].
  destruct (run cur buf) as [m rest|r' rest|] eqn:E; try reflexivity.
  apply productive_done in E; [|assumption].
  now rewrite (IH f2 body rest Hb) by lia.
Qed.

(** Running the loop always ends blocked inside an iteration, or dead: the fuel given by [feed]
    is never what stops it. *)
Definition settled {M} (st : conn M) : Prop :=
  match st with
  | Waiting cur buf => productive cur /\ exists r, run cur buf = Blocked r buf /\ r = cur
  | Dead => True
  end.

Lemma blocked_again {A} (r : reader A) b r' rest :
  run r b = Blocked r' rest -> run r' rest = Blocked r' rest.
Proof.
  revert b; induction r as [a| |n k IH]; intros b; cbn [run]; try discriminate.
  destruct (Nat.leb_spec n (length b)) as [H|H]; [apply IH|].
  intros E. injection E as <- <-. cbn [run].
  destruct (Nat.leb_spec n (length b)); [lia|reflexivity].
Qed.

Lemma loop_settled {M} (body : reader M) : productive body ->
  forall f cur buf ms st, productive cur -> length buf < f ->
  loop f body cur buf = (ms, st) -> settled st.
Proof.
  intros Hb f. induction f as [|f IH]; intros cur buf ms st Hc Hl; [lia|]. cbn [loop].
  destruct (run cur buf) as [m rest|r' rest|] eqn:E.
  - destruct (loop f body body rest) as [ms' st'] eqn:EL. intros [= _ <-].
    apply (IH body rest ms' st' Hb); [|exact EL].
    apply productive_done in E; [lia|assumption].
  - intros [= _ <-]. split; [exact (blocked_productive _ _ _ _ E)|].
    exists r'. split; [exact (blocked_again _ _ _ _ E)|reflexivity].
  - intros [= _ <-]. exact I.
Qed.

Lemma loop_app {M} (body : reader M) : productive body ->
  forall f cur b c ms st, productive cur -> length b < f ->
  loop f body cur b = (ms, st) ->
  forall F, length b + length c < F ->
  loop F body cur (b ++ c) =
  (let '(ms2, st2) := feed body st c in (ms ++ ms2, st2)).
Proof.
  intros Hb f. induction f as [|f IH]; intros cur b c ms st Hc Hl E F HF; [lia|].
  destruct F as [|F]; [lia|].
  cbn [loop] in E |- *. rewrite run_app.
  destruct (run cur b) as [m rest|r' rest|] eqn:ER.
  - destruct (loop f body body rest) as [ms' st'] eqn:EL. injection E as <- <-.
    pose proof (productive_done _ _ _ _ Hc ER) as Hlt.
    rewrite (IH body rest c ms' st' Hb) with (F := F); [|lia|exact EL|lia].
    destruct (feed body st' c) as [ms2 st2]. reflexivity.
  - injection E as <- <-. cbn [feed app].
    pose proof (blocked_productive _ _ _ _ ER) as Hp.
    pose proof (run_rest_le cur b) as L. rewrite ER in L.
    assert (Hr : length rest <= length b) by (destruct r'; tauto).
    rewrite (loop_fuel_enough body Hb (S (length (rest ++ c))) (S F) r' (rest ++ c) Hp);
      try (rewrite app_length; lia).
    cbn [loop].
    destruct (run r' (rest ++ c)) as [m2 rest2|r2 rest2|]; try reflexivity.
    destruct (loop F body body rest2) as [? ?]; reflexivity.
  - injection E as <- <-. reflexivity.
Qed.

Definition ready {M} (st : conn M) : Prop :=
  match st with Waiting cur _ => productive cur | Dead => True end.

Lemma feed_ready {M} (body : reader M) st c ms st' :
  productive body -> ready st -> feed body st c = (ms, st') -> ready st'.
Proof.
  intros Hb Hr. unfold feed. destruct st as [cur buf|]; [|intros [= _ <-]; exact I].
  intros E. apply loop_settled in E; auto. destruct st'; [destruct E; assumption|exact I].
Qed.

Lemma feed_app {M} (body : reader M) st c1 c2 :
  productive body -> ready st ->
  feed body st (c1 ++ c2) =
  (let '(ms1, st1) := feed body st c1 in
   let '(ms2, st2) := feed body st1 c2 in (ms1 ++ ms2, st2)).
Proof.
  intros Hb Hr. destruct st as [cur buf|]; [|reflexivity].
  cbn [feed]. rewrite app_assoc.
  destruct (loop (S (length (buf ++ c1))) body cur (buf ++ c1)) as [ms1 st1] eqn:E.
  refine (loop_app body Hb (S (length (buf ++ c1))) cur (buf ++ c1) c2 ms1 st1 Hr _ E _ _); [lia|].
  rewrite !app_length. lia.
Qed.

(** An untouched loop (nothing delivered since the start or the last suspension). *)
Definition fresh {M} (body : reader M) (st : conn M) : Prop := feed body st [] = ([], st).

Lemma feed_nil_settled {M} (body : reader M) st :
  settled st -> feed body st [] = ([], st).
Proof.
  destruct st as [cur buf|]; [|reflexivity]. intros [Hp [r [Hr ->]]].
  cbn [feed]. rewrite app_nil_r. cbn [loop]. now rewrite Hr.
Qed.

Lemma feed_settled {M} (body : reader M) st c ms st' :
  productive body -> ready st -> feed body st c = (ms, st') -> settled st'.
Proof.
  intros Hb Hr. unfold feed. destruct st as [cur buf|]; [|intros [= _ <-]; exact I].
  intros E. exact (loop_settled body Hb _ cur (buf ++ c) ms st' Hr (Nat.lt_succ_diag_r _) E).
Qed.

Lemma start_settled {M} (body : reader M) : productive body -> settled (Waiting body []).
Proof.
  intros H. split; [exact H|]. exists body. split; [|reflexivity].
  destruct body as [| |[|n] k]; cbn [productive] in H; try tauto; reflexivity.
Qed.

Lemma settled_ready {M} (st : conn M) : settled st -> ready st.
Proof. destruct st; [intros [H _]; exact H|trivial]. Qed.

Lemma feeds_concat {M} (body : reader M) : productive body ->
  forall chunks st, settled st -> feeds body st chunks = feed body st (concat chunks).
Proof.
  intros Hb chunks. induction chunks as [|c cs IH]; intros st Hs; cbn [feeds concat].
  - symmetry. now apply feed_nil_settled.
  - rewrite feed_app by (auto using settled_ready).
    destruct (feed body st c) as [ms1 st1] eqn:E.
    rewrite IH by (eapply feed_settled; eauto using settled_ready). reflexivity.
Qed.

(** ** Parsing what was written *)

Lemma run_read_int n b rest :
  uint64_to_bytes n = Some b -> run read_int (b ++ rest) = Done n rest.
Proof.
  intros H. apply uint64_roundtrip in H. destruct H as [Hl Hv].
  unfold read_int, UINT64_SIZE. cbn [run]. rewrite app_length, Hl.
  destruct (Nat.leb_spec 8 (8 + length rest)) as [_|?]; [|lia].
  rewrite <- Hl, firstn_app, skipn_app, Nat.sub_diag, firstn_all, skipn_all.
  cbn [firstn skipn app]. now rewrite app_nil_r, Hv.
Qed.

Lemma run_read_n {A} n (k : bytes -> reader A) b rest :
  length b = n -> run (ReadN n k) (b ++ rest) = run (k b) rest.
Proof.
  intros <-. cbn [run]. rewrite app_length.
  destruct (Nat.leb_spec (length b) (length b + length rest)) as [_|?]; [|lia].
  rewrite firstn_app, skipn_app, Nat.sub_diag, firstn_all, skipn_all.
  cbn [firstn skipn app]. now rewrite app_nil_r.
Qed.

Lemma run_read_str s b rest :
  encode_str s = Some b -> run read_str (b ++ rest) = Done s rest.
Proof.
  intros H. apply encode_str_inv in H. destruct H as (sb & lb & Hu & Hl & ->).
  unfold read_str. rewrite run_bind, <- app_assoc, (run_read_int _ _ _ Hl).
  rewrite run_read_n by now rewrite Nat2N.id.
  now rewrite (utf8_roundtrip _ _ Hu).
Qed.

Lemma command_byte_neq c d : c <> d -> command_byte c <> command_byte d.
Proof. intros H E. apply H. now apply command_byte_inj. Qed.

Lemma run_read_frame f b rest :
  write_frame f = Some b -> run read_frame (b ++ rest) = Done f rest.
Proof.
  unfold read_frame. destruct f as [i name|i ob]; cbn [write_frame].
  - destruct (uint64_to_bytes i) as [ib|] eqn:Ei; [|discriminate].
    destruct (encode_str name) as [nb|] eqn:En; [|discriminate]. intros [= <-].
    cbn [app]. change (command_byte TX_SHM :: (ib ++ nb) ++ rest)
      with ([command_byte TX_SHM] ++ ((ib ++ nb) ++ rest)).
    rewrite run_read_n by reflexivity.
    rewrite run_bind, <- app_assoc, (run_read_int _ _ _ Ei).
    destruct (list_eq_dec byte_eq_dec [command_byte TX_SHM] [command_byte TX_SHM]) as [_|n]; [|congruence].
    rewrite run_bind, (run_read_str _ _ _ En). reflexivity.
  - destruct (uint64_to_bytes i) as [ib|] eqn:Ei; [|discriminate].
    destruct (uint64_to_bytes (N.of_nat (length ob))) as [sb|] eqn:Es; [|discriminate]. intros [= <-].
    cbn [app]. change (command_byte TX_TCP :: (ib ++ sb ++ ob) ++ rest)
      with ([command_byte TX_TCP] ++ ((ib ++ sb ++ ob) ++ rest)).
    rewrite run_read_n by reflexivity.
    rewrite run_bind, <- app_assoc, (run_read_int _ _ _ Ei).
    destruct (list_eq_dec byte_eq_dec [command_byte TX_TCP] [command_byte TX_SHM]) as [E|_].
    { exfalso. injection E as E. revert E. apply command_byte_neq. discriminate. }
    destruct (list_eq_dec byte_eq_dec [command_byte TX_TCP] [command_byte TX_TCP]) as [_|n]; [|congruence].
    rewrite run_bind, <- app_assoc, (run_read_int _ _ _ Es).
    rewrite run_read_n by now rewrite Nat2N.id. reflexivity.
Qed.

Lemma run_read_ack i b rest :
  write_ack i = Some b -> run read_ack (b ++ rest) = Done (Some i) rest.
Proof.
  unfold write_ack, read_ack. destruct (uint64_to_bytes i) as [ib|] eqn:E; [|discriminate].
  intros [= <-]. cbn [app].
  change (command_byte RX_ACK :: ib ++ rest) with ([command_byte RX_ACK] ++ (ib ++ rest)).
  rewrite run_read_n by reflexivity.
  destruct (list_eq_dec byte_eq_dec [command_byte RX_ACK] [command_byte RX_ACK]) as [_|n]; [|congruence].
  now rewrite run_bind, (run_read_int _ _ _ E).
Qed.

Section Written.
  Context {M W : Type} (body : reader M) (write : W -> option bytes) (msg : W -> M).
  Hypothesis body_productive : productive body.
  Hypothesis body_reads : forall w b rest, write w = Some b -> run body (b ++ rest) = Done (msg w) rest.

  Lemma loop_written ws b : write_all write ws = Some b ->
    forall tail f, length b + length tail < f ->
    loop f body body (b ++ tail) =
    (let '(ms, st) := feed body (Waiting body []) tail in (map msg ws ++ ms, st)).
  Proof.
    revert b; induction ws as [|w ws IH]; intros b Hb tail f Hf; cbn [write_all] in Hb.
    - injection Hb as <-. cbn [app map feed].
      rewrite (loop_fuel_enough body body_productive f (S (length tail)) body tail body_productive)
        by (cbn [length] in *; lia).
      destruct (loop _ _ _ _); reflexivity.
    - destruct (write w) as [bw|] eqn:Ew; [|discriminate].
      destruct (write_all write ws) as [bs|] eqn:Es; [|discriminate]. injection Hb as <-.
      destruct f as [|f]; [lia|]. cbn [loop].
      rewrite <- app_assoc, (body_reads _ _ _ Ew).
      assert (Hpos : 1 <= length bw).
      { pose proof (body_reads w bw [] Ew) as R. rewrite app_nil_r in R.
        apply productive_done in R; [cbn [length] in R; lia|assumption]. }
      rewrite (IH bs eq_refl tail f) by (rewrite app_length in Hf; lia).
      destruct (feed body (Waiting body []) tail); reflexivity.
  Qed.

  Lemma feeds_written ws b tail chunks : write_all write ws = Some b -> concat chunks = b ++ tail ->
    feeds body (Waiting body []) chunks =
    (let '(ms, st) := feed body (Waiting body []) tail in (map msg ws ++ ms, st)).
  Proof.
    intros Hb Hc. rewrite feeds_concat by (auto using start_settled). rewrite Hc.
    cbn [feed app]. rewrite (loop_written ws b Hb tail) by (rewrite app_length; lia). reflexivity.
  Qed.

  (** Cutting one written message short delivers nothing. *)
  Lemma feed_prefix w b p q : write w = Some b -> b = p ++ q -> q <> [] ->
    fst (feed body (Waiting body []) p) = [].
  Proof.
    intros Hw E Hq. cbn [feed app loop].
    pose proof (body_reads w b [] Hw) as R. rewrite app_nil_r, E, run_app in R.
    destruct (run body p) as [m rest|r rest|]; [|reflexivity|reflexivity].
    injection R as _ R. apply app_eq_nil in R. tauto.
  Qed.
End Written.

(** ** Connections cut anywhere *)

Section Cut.
  Context {M W : Type} (body : reader M) (write : W -> option bytes) (msg : W -> M).
  Hypothesis body_productive : productive body.
  Hypothesis body_reads : forall w b rest, write w = Some b -> run body (b ++ rest) = Done (msg w) rest.

  Lemma feeds_cut ws b chunks tail :
    write_all write ws = Some b -> b = concat chunks ++ tail ->
    exists k pre,
      k <= length ws /\
      write_all write (firstn k ws) = Some pre /\ length pre <= length (concat chunks) /\
      (forall pre', k < length ws -> write_all write (firstn (S k) ws) = Some pre' ->
                    length (concat chunks) < length pre') /\
      fst (feeds body (Waiting body []) chunks) = map msg (firstn k ws).
  Proof.
    intros Hw Hb. rewrite feeds_concat by (auto using start_settled).
    revert b Hw Hb. generalize (concat chunks) as p. clear chunks.
    induction ws as [|w ws IH]; intros p b Hw Hb; cbn [write_all] in Hw.
    - injection Hw as <-. symmetry in Hb. apply app_eq_nil in Hb as [-> ->].
      exists 0, []. cbn [firstn write_all length]. repeat split; try lia.
      rewrite (feed_nil_settled body _ (start_settled body body_productive)). reflexivity.
    - destruct (write w) as [bw|] eqn:Ew; [|discriminate].
      destruct (write_all write ws) as [bs|] eqn:Es; [|discriminate].
      assert (Hbb : b = bw ++ bs) by congruence. clear Hw. rewrite Hbb in Hb.
      destruct (Nat.le_gt_cases (length bw) (length p)) as [Hle|Hgt].
      + assert (Hp : exists p', p = bw ++ p' /\ bs = p' ++ tail).
        { exists (skipn (length bw) p).
          assert (E1 : firstn (length bw) (bw ++ bs) = firstn (length bw) (p ++ tail)) by now rewrite Hb.
          assert (E2 : skipn (length bw) (bw ++ bs) = skipn (length bw) (p ++ tail)) by now rewrite Hb.
          rewrite firstn_app, Nat.sub_diag, firstn_all, firstn_app in E1.
          rewrite skipn_app, Nat.sub_diag, skipn_all, skipn_app in E2.
          replace (length bw - length p) with 0 in * by lia.
          cbn [firstn skipn app] in E1, E2. rewrite !app_nil_r in E1.
          split; [|exact E2]. rewrite E1 at 1. symmetry. apply firstn_skipn. }
        destruct Hp as (p' & -> & Hbs).
        destruct (IH p' bs eq_refl Hbs) as (k & pre & Hk & Hpre & Hlen & Hmax & Hdel).
        exists (S k), (bw ++ pre). repeat split.
        * cbn [length]; lia.
        * cbn [firstn write_all]. now rewrite Ew, Hpre.
        * rewrite !app_length; lia.
        * intros pre' Hlt Hpre'. change (firstn (S (S k)) (w :: ws)) with (w :: firstn (S k) ws) in Hpre'.
          cbn [write_all] in Hpre'. rewrite Ew in Hpre'.
          destruct (write_all write (firstn (S k) ws)) as [q|] eqn:Eq; [|discriminate].
          assert (pre' = bw ++ q) by congruence. subst pre'. rewrite !app_length.
          cbn [length] in Hlt. specialize (Hmax q ltac:(lia) eq_refl). lia.
        * cbn [feed app]. rewrite (loop_written body write msg body_productive body_reads [w] bw) with (tail := p').
          -- cbn [map]. cbn [feed app] in Hdel |- *.
             destruct (loop (S (length p')) body body p') as [ms st]. cbn [fst] in *. rewrite Hdel. reflexivity.
          -- cbn [write_all]. now rewrite Ew, app_nil_r.
          -- rewrite app_length. lia.
      + exists 0, []. cbn [firstn write_all length map]. repeat split; try lia.
        * intros pre' _. rewrite Ew, app_nil_r. intros [= <-]. exact Hgt.
        * assert (Hq : exists q, bw = p ++ q /\ q <> []).
          { exists (skipn (length p) bw). split.
            - assert (E1 : firstn (length p) (bw ++ bs) = firstn (length p) (p ++ tail)) by now rewrite Hb.
              rewrite firstn_app, (firstn_app (length p) p), Nat.sub_diag, firstn_all in E1.
              replace (length p - length bw) with 0 in E1 by lia.
              cbn [firstn] in E1. rewrite !app_nil_r in E1. rewrite <- E1 at 1. symmetry. apply firstn_skipn.
            - intros E. apply (f_equal (@length _)) in E. rewrite skipn_length in E. cbn [length] in E. lia. }
          destruct Hq as (q & Eq & Hq).
          exact (feed_prefix body write msg body_reads w bw p q Ew Eq Hq).
  Qed.
End Cut.

Lemma read_frame_productive : productive read_frame.
Proof. exact I. Qed.
Lemma read_ack_productive : productive read_ack.
Proof. exact I. Qed.

Lemma feeds_same_bytes {M} (body : reader M) : productive body ->
  forall chunks1 chunks2, concat chunks1 = concat chunks2 ->
  feeds body (Waiting body []) chunks1 = feeds body (Waiting body []) chunks2.
Proof. intros H c1 c2 E. rewrite !feeds_concat by (auto using start_settled). now rewrite E. Qed.

Lemma frames_same_bytes chunks1 chunks2 : concat chunks1 = concat chunks2 ->
  feeds read_frame (Waiting read_frame []) chunks1 = feeds read_frame (Waiting read_frame []) chunks2.
Proof. apply feeds_same_bytes, read_frame_productive. Qed.

Lemma acks_same_bytes chunks1 chunks2 : concat chunks1 = concat chunks2 ->
  feeds read_ack (Waiting read_ack []) chunks1 = feeds read_ack (Waiting read_ack []) chunks2.
Proof. apply feeds_same_bytes, read_ack_productive. Qed.

Lemma frames_cut fs b chunks tail :
  write_all write_frame fs = Some b -> b = concat chunks ++ tail ->
  exists k pre, k <= length fs /\
    write_all write_frame (firstn k fs) = Some pre /\ length pre <= length (concat chunks) /\
    (forall pre', k < length fs -> write_all write_frame (firstn (S k) fs) = Some pre' ->
                  length (concat chunks) < length pre') /\
    fst (feeds read_frame (Waiting read_frame []) chunks) = firstn k fs.
Proof.
  intros Hw Hb.
  destruct (feeds_cut read_frame write_frame (fun f => f) read_frame_productive run_read_frame fs b chunks tail Hw Hb)
    as (k & pre & H1 & H2 & H3 & H4 & H5).
  rewrite map_id in H5. exists k, pre. auto.
Qed.

Lemma acks_cut ids b chunks tail :
  write_all write_ack ids = Some b -> b = concat chunks ++ tail ->
  exists k pre, k <= length ids /\
    write_all write_ack (firstn k ids) = Some pre /\ length pre <= length (concat chunks) /\
    (forall pre', k < length ids -> write_all write_ack (firstn (S k) ids) = Some pre' ->
                  length (concat chunks) < length pre') /\
    fst (feeds read_ack (Waiting read_ack []) chunks) = map Some (firstn k ids).
Proof.
  exact (feeds_cut read_ack write_ack Some read_ack_productive run_read_ack ids b chunks tail).
Qed.

Lemma frames_complete fs b chunks :
  write_all write_frame fs = Some b -> concat chunks = b ->
  feeds read_frame (Waiting read_frame []) chunks = (fs, Waiting read_frame []).
Proof.
  intros Hw Hc.
  rewrite (feeds_written read_frame write_frame (fun f => f) read_frame_productive run_read_frame fs b [] chunks Hw)
    by now rewrite app_nil_r.
  rewrite (feed_nil_settled _ _ (start_settled _ read_frame_productive)), map_id, app_nil_r. reflexivity.
Qed.

Lemma acks_complete ids b chunks :
  write_all write_ack ids = Some b -> concat chunks = b ->
  feeds read_ack (Waiting read_ack []) chunks = (map Some ids, Waiting read_ack []).
Proof.
  intros Hw Hc.
  rewrite (feeds_written read_ack write_ack Some read_ack_productive run_read_ack ids b [] chunks Hw)
    by now rewrite app_nil_r.
  rewrite (feed_nil_settled _ _ (start_settled _ read_ack_productive)), app_nil_r. reflexivity.
Qed.

(** ** Field sequences *)


Lemma command_of_bytes_value c b : command_value c = Some b -> command_of_bytes b = Some c.
Proof.
  intros H. unfold command_of_bytes.
  destruct (find _ all_commands) as [d|] eqn:E.
  - apply find_some in E. destruct E as [_ E].
    destruct (command_value d) as [v|] eqn:Ed; [|discriminate].
    destruct (list_eq_dec byte_eq_dec b v) as [->|]; [|discriminate].
    destruct (command_value_some c) as (x & Hx & ->). destruct (command_value_some d) as (y & Hy & ->).
    f_equal. symmetry. apply command_byte_inj. congruence.
  - exfalso. pose proof (find_none _ _ E c (all_commands_complete c)) as F. cbn beta in F.
    rewrite H in F. destruct (list_eq_dec byte_eq_dec b b); congruence.
Qed.

Lemma run_read_field f b rest :
  write_field f = Some b -> run (read_field (kind_of f)) (b ++ rest) = Done f rest.
Proof.
  destruct f as [c|n|s|bl]; cbn [write_field kind_of read_field]; intros H.
  - rewrite run_read_n by (destruct (command_value_some c) as (x & Hx & _); rewrite Hx in H; now injection H as <-).
    now rewrite (command_of_bytes_value c b H).
  - now rewrite run_bind, (run_read_int _ _ _ H).
  - now rewrite run_bind, (run_read_str _ _ _ H).
  - injection H as <-. now rewrite run_read_n.
Qed.

Lemma run_read_fields fs b rest :
  write_fields fs = Some b -> run (read_fields (map kind_of fs)) (b ++ rest) = Done fs rest.
Proof.
  revert b; induction fs as [|f fs IH]; intros b H; cbn [write_fields] in H.
  - injection H as <-. reflexivity.
  - destruct (write_field f) as [bf|] eqn:Ef; [|discriminate].
    destruct (write_fields fs) as [bs|] eqn:Es; [|discriminate]. injection H as <-.
    cbn [map read_fields]. rewrite run_bind, <- app_assoc, (run_read_field _ _ _ Ef).
    rewrite run_bind, (IH bs eq_refl). reflexivity.
Qed.
