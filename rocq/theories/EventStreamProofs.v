(** Proofs about subscriptions to events (EventStreamModel.v). *)
From Coq Require Import List NArith Arith Bool Lia.
From Coq Require Import Strings.Byte.
From Verif Require Import Dict CodecModel CodecProofs StreamModel StreamProofs EventLogModel EventLogSpec
  EventLogProofs EventStreamModel EventStreamSpec.
Import ListNotations.

Section Proofs.
Context {A V : Type}.
Variable of_event : which -> event A -> V.
Variable is_event : which -> V -> bool.
Variable dumps : which -> event A -> bytes.
Variable loads : bytes -> option V.
Variable text : nat -> pystr.
Variable int_of : pystr -> option nat.
Variable uuid : pystr.
Variable uuid_ok : pystr -> bool.
Variable me : nat.

Hypothesis pickle_ok : forall k e, loads (dumps k e) = Some (of_event k e).
Hypothesis type_ok : forall k e, is_event k (of_event k e) = true.
Hypothesis int_ok : forall n, int_of (text n) = Some n.
Hypothesis id_ok : uuid_ok uuid = true.

Variables (asked : which) (after : nat) (req ans : bytes).
Hypothesis req_ok : request text asked after = Some req.
Hypothesis ans_ok : answer uuid = Some ans.
Variable limit : nat.
Variables (before : list (log_op A)) (logs0 : which -> log A).
Hypothesis logs0_ok : logs0 asked = after_ops limit before.
Hypothesis fresh : forall op, In op before -> others A me op = true.

Notation world := (world A V).
Notation happening := (happening A).
Notation step := (step A V is_event dumps loads int_of uuid uuid_ok me asked).
Notation steps := (steps A V is_event dumps loads int_of uuid uuid_ok me asked).
Notation start := (start A V logs0 req).
Notation read_event := (read_event V is_event loads asked).

(** What happened to the log that the client asked for. *)
Definition hist (hs : list happening) : list (log_op A) :=
  flat_map (fun h => match h with
                     | Log _ j op => if dec j asked then [op] else []
                     | ServerRegisters _ => [Subscribe me after]
                     | ServerSends _ => [Send me]
                     | ServerNotices _ => [Unsubscribe me]
                     | _ => []
                     end) hs.

Lemma hist_app h1 h2 : hist (h1 ++ h2) = hist h1 ++ hist h2.
Proof. apply flat_map_app. Qed.

Lemma added_app h1 h2 : added (A := A) asked (h1 ++ h2) = added asked h1 ++ added asked h2.
Proof. apply flat_map_app. Qed.

Lemma appended_hist hs : appended (hist hs) = added asked hs.
Proof.
  induction hs as [|h hs IH]; [reflexivity|].
  change (h :: hs) with ([h] ++ hs). rewrite hist_app, added_app, appended_app, IH. f_equal.
  destruct h as [j op| | | | | | | | | |]; try reflexivity.
  unfold hist, added. cbn [flat_map app]. rewrite !app_nil_r.
  destruct (dec j asked); destruct op; reflexivity.
Qed.

Lemma steps_app h1 : forall w h2, steps w (h1 ++ h2) = match steps w h1 with Some w1 => steps w1 h2 | None => None end.
Proof.
  induction h1 as [|h h1 IH]; intros w h2; [reflexivity|]. cbn [app EventStreamModel.steps].
  destruct (step w h); [apply IH|reflexivity].
Qed.

(** *** The bytes *)

Definition frame (e : event A) : bytes :=
  match write_event A dumps asked e with Some b => b | None => [] end.
Definition frames (l : list (event A)) : bytes := flat_map frame l.

Lemma frames_app l1 l2 : frames (l1 ++ l2) = frames l1 ++ frames l2.
Proof. apply flat_map_app. Qed.

(** The event can be sent: its size fits. *)
Definition sendable (e : event A) : Prop := write_event A dumps asked e = Some (frame e).

Lemma write_event_some e b : write_event A dumps asked e = Some b -> b = frame e /\ sendable e.
Proof. intros H. unfold sendable, frame. rewrite H. auto. Qed.

Lemma frame_length e : sendable e -> 8 <= length (frame e).
Proof.
  intros H. unfold sendable, write_event in H.
  destruct (uint64_to_bytes _) as [b|] eqn:U; [|discriminate]. injection H as <-.
  apply uint64_roundtrip in U. rewrite app_length. lia.
Qed.

Lemma run_event e rest : sendable e -> run read_event (frame e ++ rest) = Done (Some (of_event asked e)) rest.
Proof.
  intros H. unfold sendable, write_event in H.
  destruct (uint64_to_bytes _) as [b|] eqn:U; [|discriminate]. injection H as <-.
  unfold EventStreamModel.read_event. rewrite run_bind, <- app_assoc, (run_read_int _ _ _ U).
  rewrite run_read_n by now rewrite Nat2N.id.
  now rewrite pickle_ok, type_ok.
Qed.

Lemma run_event_nil : exists r b, run read_event [] = Blocked r b.
Proof. unfold EventStreamModel.read_event. rewrite run_bind. cbn. eauto. Qed.

Lemma read_events b x l : (forall e, In e l -> sendable e) -> b ++ x = frames l ->
  (exists r c, run read_event b = Blocked r c) \/
  (exists e r rest, l = e :: r /\ run read_event b = Done (Some (of_event asked e)) rest /\ rest ++ x = frames r).
Proof.
  destruct l as [|e r]; intros F H.
  - apply app_eq_nil in H as [-> ->]. left. apply run_event_nil.
  - pose proof (run_event e (frames r) (F e (or_introl eq_refl))) as R. change (frame e ++ frames r) with (frames (e :: r)) in R.
    rewrite <- H, run_app in R. destruct (run read_event b) as [v rest|r' c|] eqn:E.
    + right. injection R as -> R. eauto 8.
    + left. eauto.
    + discriminate.
Qed.

Lemma run_answer rest : exists u, encode_str uuid = Some u /\ ans = u ++ [command_byte COMPLETE] /\
  run read_str (ans ++ rest) = Done uuid (command_byte COMPLETE :: rest).
Proof.
  unfold answer in ans_ok. destruct (encode_str uuid) as [u|] eqn:U; [|discriminate].
  injection ans_ok as <-. exists u. split; [reflexivity|split; [reflexivity|]].
  rewrite <- app_assoc. now rewrite (run_read_str _ _ _ U).
Qed.

(** Reading the answer: it has not come yet, or not the last byte, or all of it. *)
Lemma read_answers b x l : b ++ x = ans ++ frames l ->
  (exists r c, run read_str b = Blocked r c) \/
  (exists rest, run read_str b = Done uuid rest /\
     (rest = [] \/ exists rest', rest = command_byte COMPLETE :: rest' /\ rest' ++ x = frames l)).
Proof.
  intros H. destruct (run_answer (frames l)) as (u & U & _ & R). rewrite <- H, run_app in R.
  destruct (run read_str b) as [v rest|r' c|] eqn:E.
  - right. injection R as -> R. exists rest. split; [reflexivity|].
    destruct rest as [|c rest']; [auto|]. right. cbn in R. injection R as -> R. eauto.
  - left. eauto.
  - discriminate.
Qed.

Lemma run_str_nil : exists r c, run read_str [] = Blocked r c.
Proof. unfold read_str. rewrite run_bind. cbn. eauto. Qed.

Lemma read_request : run (read_subscribe int_of) req = Done (asked, after) [].
Proof.
  unfold request in req_ok. destruct (encode_str (text after)) as [t|] eqn:T; [|discriminate].
  injection req_ok as <-. unfold read_subscribe.
  change (command_byte (subscribe_command asked) :: t) with ([command_byte (subscribe_command asked)] ++ t).
  rewrite run_read_n by reflexivity.
  destruct asked; cbn [subscribe_command];
    match goal with |- context [command_of_bytes [command_byte ?c]] =>
      replace (command_of_bytes [command_byte c]) with (Some c) by (vm_compute; reflexivity) end;
    rewrite run_bind, <- (app_nil_r t), (run_read_str _ _ _ T), int_ok; reflexivity.
Qed.

Lemma read_requests b x : b ++ x = req ->
  (exists r c, run (read_subscribe int_of) b = Blocked r c) \/
  (exists rest, run (read_subscribe int_of) b = Done (asked, after) rest /\ rest ++ x = []).
Proof.
  intros H. pose proof read_request as R.
  rewrite <- H, run_app in R. destruct (run (read_subscribe int_of) b) as [v rest|r' c|] eqn:E.
  - right. injection R as -> R. eauto.
  - left. eauto.
  - discriminate.
Qed.

(** *** The log *)

Lemma log_step_other op l : others A me op = true ->
  match op with Append _ => True | _ => get me (l_subs (log_step l op)) = get me (l_subs l) end.
Proof.
  destruct op as [a|i n|i|i]; cbn [others]; intros O; try apply negb_true_iff, Nat.eqb_neq in O; [exact I|..].
  - cbn [log_step]. unfold subscribe; cbn [l_subs]. apply get_put_neq. congruence.
  - cbn [log_step]. unfold unsubscribe; cbn [l_subs]. apply get_del_neq. congruence.
  - cbn [log_step]. unfold send. destruct (get i (l_subs l)) as [s|]; [|reflexivity].
    destruct (q_queue s); [reflexivity|]. cbn [l_subs]. apply get_put_neq. congruence.
Qed.

Lemma get_append a (l : log A) : get me (l_subs (append a l)) =
  option_map (offer (S (l_seq l), a)) (get me (l_subs l)).
Proof. unfold append; cbn [l_subs]. apply get_map. Qed.

Lemma written_other op l : others A me op = true -> written (log_step l op) me = written l me.
Proof.
  intros O. pose proof (log_step_other op l O) as H. unfold written. destruct op as [a|i n|i|i]; try (now rewrite H).
  cbn [log_step]. rewrite get_append. now destruct (get me (l_subs l)).
Qed.

Lemma absent_other op l : others A me op = true -> get me (l_subs l) = None -> get me (l_subs (log_step l op)) = None.
Proof.
  intros O N. pose proof (log_step_other op l O) as H. destruct op as [a|i n|i|i]; try (now rewrite H).
  cbn [log_step]. rewrite get_append. now rewrite N.
Qed.

Lemma others_stay op : others A me op = true -> op <> Unsubscribe me /\ forall n, op <> Subscribe me n.
Proof.
  intros O. split; [intros ->|intros n ->]; cbn in O; rewrite Nat.eqb_refl in O; discriminate.
Qed.

Lemma appended_in (l1 l2 : list A) e : In e (numbered l1) -> In e (numbered (l1 ++ l2)).
Proof.
  intros I. induction l2 as [|a l IH] using rev_ind; [now rewrite app_nil_r|].
  rewrite app_assoc, numbered_snoc. apply in_app_iff; auto.
Qed.

(** *** The invariant *)

Definition all (hs : list happening) : list A := appended before ++ added asked hs.

Lemma all_eq hs : all hs = appended (before ++ hist hs).
Proof. unfold all. now rewrite appended_app, appended_hist. Qed.

Record Inv (hs : list happening) (w : world) : Prop := {
  i_logs : logs A V w asked = after_ops limit (before ++ hist hs);
  i_srv : match srv A V w with
          | Reading => get me (l_subs (logs A V w asked)) = None
          | Answered k n => k = asked /\ n = after /\ get me (l_subs (logs A V w asked)) = None
          | Serving k s => k = asked /\
              (s = false -> exists e, In e (numbered (all hs)) /\ write_event A dumps asked e = None) /\
              exists b l, before ++ hist hs = b ++ Subscribe me after :: l /\ stays me l
          | Gone => get me (l_subs (logs A V w asked)) = None
          end;
  i_req : srv A V w = Reading -> exists lost, sbuf A V w ++ up A V w ++ lost = req /\
            (down_end A V w = false -> lost = [] /\ up_end A V w = false);
  i_listen : cli A V w = Listening -> srv A V w <> Reading;
  i_pipe : exists a out lost,
      increasing out /\
      (forall e, In e out -> In e (numbered (all hs)) /\ sendable e /\
         (after <= length (appended before) -> after < fst e)) /\
      (a = [] /\ out = [] /\ (srv A V w = Reading \/ srv A V w = Gone /\ down_end A V w = true) \/ a = ans /\ srv A V w <> Reading) /\
      (down_end A V w = false -> lost = []) /\
      match srv A V w with
      | Serving _ s => s = true -> out = written (logs A V w asked) me
      | Gone => True
      | _ => out = []
      end /\
      match cli A V w with
      | Asking => yielded A V w = [] /\ cbuf A V w ++ down A V w ++ lost = a ++ frames out
      | Listening => exists o1 o2, out = o1 ++ o2 /\ yielded A V w = map (of_event asked) o1 /\
                       cbuf A V w ++ down A V w ++ lost = frames o2
      | Over _ => exists o1 o2, out = o1 ++ o2 /\ yielded A V w = map (of_event asked) o1
      end;
  i_end : up_end A V w = true -> closed A V w = true \/ down_end A V w = true;
  i_closed : closed A V w = true -> up_end A V w = true /\ exists h, cli A V w = Over h;
  i_returned : cli A V w = Over Returned -> closed A V w = true;
  i_calm : (forall h, In h hs -> undisturbed h) ->
     (forall h, cli A V w <> Over h) /\ down_end A V w = false /\ srv A V w <> Gone;
  i_raised : ~ In (Reset A) hs -> cli A V w = Over Raised -> yielded A V w = []
}.

Lemma start_absent ops : (forall op, In op ops -> others A me op = true) ->
  get me (l_subs (after_ops limit ops)) = None.
Proof.
  induction ops as [|op ops IH] using rev_ind; intros F; [reflexivity|].
  rewrite after_ops_snoc. apply absent_other; [apply F, in_app_iff; right; now left|].
  apply IH. intros o I. apply F, in_app_iff. auto.
Qed.

Lemma Inv_start : Inv [] start.
Proof.
  constructor; cbn [EventStreamModel.start srv logs up up_end sbuf down down_end cbuf cli closed yielded];
    try discriminate.
  - now rewrite app_nil_r.
  - rewrite logs0_ok. now apply start_absent.
  - intros _. exists []. now rewrite app_nil_r.
  - exists [], [], []. split; [exact I|]. split; [intros e []|]. cbn. auto 8.
  - intros _. split; [discriminate|split; [reflexivity|discriminate]].
Qed.


Ltac fields := cbn [set_logs set_srv set_sbuf set_cbuf set_cli write_down yield close hang_up
  logs srv up up_end sbuf down down_end cbuf cli closed yielded] in *.

Lemma all_snoc hs h : all (hs ++ [h]) = all hs ++ added asked [h].
Proof. unfold all. now rewrite added_app, app_assoc. Qed.

Lemma calm_snoc (hs : list happening) h : (forall x, In x (hs ++ [h]) -> undisturbed x) ->
  (forall x, In x hs -> undisturbed x) /\ undisturbed h.
Proof. intros C. split; [intros x I|]; apply C, in_app_iff; [auto|right; now left]. Qed.

Lemma no_reset_snoc (hs : list happening) h : ~ In (Reset A) (hs ++ [h]) -> ~ In (Reset A) hs /\ h <> Reset A.
Proof. intros C. split; [intros I|intros ->]; apply C, in_app_iff; [auto|right; now left]. Qed.

Lemma at_end_eq (w : world) : at_end A V w = true -> down_end A V w = true /\ down A V w = [].
Proof. unfold at_end. intros E. apply andb_true_iff in E as [E1 E2]. destruct (down A V w); [auto|discriminate]. Qed.

(** A step of the rest of the server, or of the bytes: the handler and the client are as before. *)
Lemma Inv_log hs w j op w' : Inv hs w -> step w (Log A j op) = Some w' -> Inv (hs ++ [Log A j op]) w'.
Proof.
  intros [L S Q N P E C R K D] H. cbn [EventStreamModel.step] in H.
  destruct (others A me op) eqn:O; [|discriminate]. injection H as <-.
  assert (X : logs A V (set_logs A V w (upd_log A (logs A V w) j (log_step (logs A V w j) op))) asked
              = if dec j asked then log_step (logs A V w asked) op else logs A V w asked).
  { fields. unfold upd_log. destruct (dec asked j) as [<-|Ne]; destruct (dec _ _); congruence. }
  assert (Y : before ++ hist (hs ++ [Log A j op]) = (before ++ hist hs) ++ if dec j asked then [op] else []).
  { rewrite hist_app, app_assoc. unfold hist at 2. cbn [flat_map]. now rewrite app_nil_r. }
  constructor; rewrite ?X, ?Y; fields; auto.
  - rewrite L. destruct (dec j asked); [now rewrite after_ops_snoc|now rewrite app_nil_r].
  - destruct (srv A V w) as [|k n|k s|].
    + destruct (dec j asked); [now apply absent_other|assumption].
    + destruct S as (-> & -> & G). repeat split. destruct (dec j asked); [now apply absent_other|assumption].
    + destruct S as (-> & Sd & b & l & B & St). split; [reflexivity|]. split.
      { intros F. destruct (Sd F) as (e & I1 & I2). exists e. split; [|assumption].
        rewrite all_snoc. now apply appended_in. }
      rewrite B. destruct (dec j asked).
      * exists b, (l ++ [op]). split; [now rewrite <- app_assoc|].
        intros o I. apply in_app_iff in I as [I|[<-|[]]]; [now apply St|now apply others_stay].
      * rewrite app_nil_r. eauto.
    + destruct (dec j asked); [now apply absent_other|assumption].
  - destruct P as (a & out & lost & P1 & P2 & P3 & P4 & P5 & P6). exists a, out, lost.
    repeat (split; [assumption|]). split; [|repeat (split; [assumption|])].
    + intros e I. rewrite all_snoc. destruct (P2 e I) as (I1 & I2). split; [now apply appended_in|assumption].
    + split; [|assumption]. destruct (srv A V w); auto.
      intros Sd. destruct (dec j asked); [rewrite written_other; auto|auto].
  - intros T. apply calm_snoc in T as [T _]. auto.
  - intros T. apply no_reset_snoc in T as [T _]. auto.
Qed.

(** Happenings that leave the logs alone. *)
Lemma quiet_hist hs h : hist [h] = [] -> hist (hs ++ [h]) = hist hs.
Proof. intros E. now rewrite hist_app, E, app_nil_r. Qed.

Lemma quiet_all hs h : added asked [h] = [] -> all (hs ++ [h]) = all hs.
Proof. intros E. now rewrite all_snoc, E, app_nil_r. Qed.

Lemma Inv_arrive hs w h w' : (exists n, h = ArriveUp A n \/ h = ArriveDown A n) ->
  Inv hs w -> step w h = Some w' -> Inv (hs ++ [h]) w'.
Proof.
  intros (n & Hh) [L S Q N P E C R K D] H.
  assert (X : hist (hs ++ [h]) = hist hs) by (apply quiet_hist; destruct Hh as [->| ->]; reflexivity).
  assert (Y : all (hs ++ [h]) = all hs) by (apply quiet_all; destruct Hh as [->| ->]; reflexivity).
  destruct Hh as [->| ->]; cbn [EventStreamModel.step] in H;
    destruct ((0 <? n) && (n <=? _)) eqn:B; try discriminate; injection H as <-;
    constructor; rewrite ?X, ?Y; fields; auto;
    try (intros T; (apply calm_snoc in T as [T _] || apply no_reset_snoc in T as [T _]); auto; fail).
  - intros Sr. destruct (Q Sr) as (lost & Q1 & Q2). exists lost. split; [|assumption].
    rewrite <- Q1. rewrite <- app_assoc, (app_assoc (firstn n _)), firstn_skipn. reflexivity.
  - destruct P as (a & out & lost & P1 & P2 & P3 & P4 & P5 & P6). exists a, out, lost.
    repeat (split; [assumption|]).
    assert (Z : (cbuf A V w ++ firstn n (down A V w)) ++ skipn n (down A V w) ++ lost =
                cbuf A V w ++ down A V w ++ lost).
    { rewrite <- app_assoc, (app_assoc (firstn n _)), firstn_skipn. reflexivity. }
    rewrite Z. assumption.
Qed.

Lemma Inv_server_reads hs w w' : Inv hs w -> step w (ServerReads A) = Some w' -> Inv (hs ++ [ServerReads A]) w'.
Proof.
  intros [L S Q N P E C R K D] H. cbn [EventStreamModel.step] in H.
  assert (X : hist (hs ++ [ServerReads A]) = hist hs) by now apply quiet_hist.
  assert (Y : all (hs ++ [ServerReads A]) = all hs) by now apply quiet_all.
  destruct (srv A V w) eqn:Sr; try discriminate. destruct (Q eq_refl) as (lost & Q1 & Q2).
  destruct (read_requests _ _ Q1) as [(r & c & Rd)|(rest & Rd & Re)]; rewrite Rd in H.
  - destruct (up_end A V w && _) eqn:B; [|discriminate]. injection H as <-.
    apply andb_true_iff in B as [B1 B2].
    assert (De : down_end A V w = true).
    { destruct (down_end A V w) eqn:De; [reflexivity|]. destruct (Q2 eq_refl). congruence. }
    constructor; rewrite ?X, ?Y; fields; auto; try discriminate;
    try (intros T; (apply calm_snoc in T as [T _] || apply no_reset_snoc in T as [T _]); auto; fail).
    destruct P as (a & out & lost' & P1 & P2 & P3 & P4 & P5 & P6). exists a, out, lost'.
    split; [assumption|]. split; [assumption|]. split; [|auto].
    destruct P3 as [(-> & -> & _)|[_ P3]]; [left; auto|congruence].
    intros T. apply calm_snoc in T as [T _]. destruct (K T) as (_ & ? & _). congruence.
  - rewrite ans_ok in H. injection H as <-.
    constructor; rewrite ?X, ?Y; fields; auto; try discriminate;
    try (intros T; (apply calm_snoc in T as [T _] || apply no_reset_snoc in T as [T _]); auto; fail).
    destruct P as (a & out & lost' & P1 & P2 & P3 & P4 & P5 & P6). subst out.
    destruct P3 as [(-> & _ & _)|[_ P3]]; [|congruence].
    exists ans, [], (if down_end A V w then lost' ++ ans else []).
    repeat (split; [assumption|]). split; [right; split; [reflexivity|discriminate]|].
    split; [now intros ->|]. split; [reflexivity|].
    destruct (cli A V w) eqn:Cl; [|now exfalso; apply N|assumption].
    destruct P6 as [P6 P7]. split; [assumption|]. cbn [frames flat_map] in *. rewrite app_nil_r in *.
    destruct (down_end A V w); [|rewrite (P4 eq_refl) in P7]; rewrite ?app_nil_r in *.
    + rewrite !app_assoc in *. rewrite P7. reflexivity.
    + rewrite app_assoc, P7. reflexivity.
    + intros T. apply calm_snoc in T as [T _]. destruct (K T) as (K1 & K2 & _).
      split; [assumption|split; [assumption|discriminate]].
Qed.

Lemma Inv_registers hs w w' : Inv hs w -> step w (ServerRegisters A) = Some w' -> Inv (hs ++ [ServerRegisters A]) w'.
Proof.
  intros [L S Q N P E C R K D] H. cbn [EventStreamModel.step] in H.
  assert (X : before ++ hist (hs ++ [ServerRegisters A]) = (before ++ hist hs) ++ [Subscribe me after])
    by (now rewrite hist_app, app_assoc).
  assert (Y : all (hs ++ [ServerRegisters A]) = all hs) by now apply quiet_all.
  destruct (srv A V w) as [|k n|k s|] eqn:Sr; try discriminate. destruct S as (-> & -> & G).
  injection H as <-.
  assert (Z : upd_log A (logs A V w) asked (subscribe me after (logs A V w asked)) asked
              = subscribe me after (logs A V w asked)).
  { unfold upd_log. destruct (dec asked asked); congruence. }
  constructor; rewrite ?X, ?Y; fields; rewrite ?Z; auto; try discriminate;
    try (intros T; (apply calm_snoc in T as [T _] || apply no_reset_snoc in T as [T _]); auto; fail).
  - now rewrite after_ops_snoc, L.
  - split; [reflexivity|]. split; [discriminate|].
    exists (before ++ hist hs), []. split; [reflexivity|intros o []].
  - destruct P as (a & out & lost' & P1 & P2 & P3 & P4 & P5 & P6). subst out.
    exists a, [], lost'. split; [exact I|]. split; [intros e []|].
    split; [|split; [assumption|split; [|assumption]]].
    + right. split; [|discriminate]. destruct P3 as [(-> & _ & [P3|[P3 _]])|[-> _]]; try discriminate. reflexivity.
    + intros _. unfold written, subscribe; cbn [l_subs]. now rewrite get_put_eq.
  - intros T. apply calm_snoc in T as [T _]. destruct (K T) as (K1 & K2 & _).
    split; [assumption|split; [assumption|discriminate]].
Qed.

Lemma Inv_sends hs w w' : Inv hs w -> step w (ServerSends A) = Some w' -> Inv (hs ++ [ServerSends A]) w'.
Proof.
  intros [L S Q N P E C R K D] H. cbn [EventStreamModel.step] in H.
  assert (X : before ++ hist (hs ++ [ServerSends A]) = (before ++ hist hs) ++ [Send me])
    by (now rewrite hist_app, app_assoc).
  assert (Y : all (hs ++ [ServerSends A]) = all hs) by now apply quiet_all.
  destruct (srv A V w) as [|k n|k [|]|] eqn:Sr; try discriminate. destruct S as (-> & Sd & b & l & B & St).
  destruct (get me (l_subs (logs A V w asked))) as [[[|e q] o]|] eqn:G; try discriminate.
  assert (Z : upd_log A (logs A V w) asked (send me (logs A V w asked)) asked = send me (logs A V w asked)).
  { unfold upd_log. destruct (dec asked asked); congruence. }
  assert (Wr : written (send me (logs A V w asked)) me = written (logs A V w asked) me ++ [e]).
  { unfold written, send. rewrite G. cbn [q_queue q_out l_subs]. now rewrite get_put_eq. }
  assert (St' : stays me (l ++ [Send me])).
  { intros x I. apply in_app_iff in I as [I|[<-|[]]]; [now apply St|split; [|intros]; discriminate]. }
  assert (B' : (before ++ hist hs) ++ [Send me] = b ++ Subscribe me after :: l ++ [Send me]).
  { now rewrite B, <- app_assoc. }
  pose proof (SubInv_all limit me after b (l ++ [Send me]) St') as SI.
  assert (SL : st limit me after b (l ++ [Send me]) = send me (logs A V w asked)).
  { rewrite st_snoc. cbn [log_step]. f_equal. rewrite L, B. reflexivity. }
  destruct P as (a & out & lost & P1 & P2 & P3 & P4 & P5 & P6). rewrite ?Sr in *.
  specialize (P5 eq_refl). destruct SI as [_ [d [DQ WD]] _ INC _]. rewrite SL, Wr, <- P5 in *.
  apply increasing_app in INC as [INC _].
  assert (Pa : a = ans) by (destruct P3 as [(-> & _ & [P3|[P3 _]])|[-> _]]; try discriminate; reflexivity).
  assert (In_e : forall e', In e' (out ++ [e]) ->
            In e' (numbered (all hs)) /\ (after <= length (appended before) -> after < fst e')).
  { intros e' I. rewrite all_eq. specialize (WD e' I).
    assert (J : In e' (EventLogProofs.D limit after b (l ++ [Send me]))) by (rewrite DQ; apply in_app_iff; auto).
    split.
    - apply D_In in J. rewrite B. rewrite app_assoc, appended_app in J. cbn [appended flat_map] in J.
      rewrite app_nil_r in J. now rewrite appended_sub.
    - intros Le. unfold EventLogProofs.D, due in J. apply in_app_iff in J as [J|J].
      + apply In_lastn, filter_In in J as [_ J]. now apply Nat.ltb_lt in J.
      + assert (Lb : length (appended before) <= length (appended b)).
        { destruct (le_lt_dec (length before) (length b)) as [Lb|Lb].
          - assert (Eb : b = before ++ skipn (length before) b).
            { rewrite <- (firstn_skipn (length before) b) at 1. f_equal.
              transitivity (firstn (length before) (b ++ Subscribe me after :: l)).
              - rewrite firstn_app. replace (length before - length b) with 0 by lia. now rewrite app_nil_r.
              - rewrite <- B, firstn_app, firstn_all, Nat.sub_diag. apply app_nil_r. }
            rewrite Eb, appended_app, app_length. lia.
          - exfalso. assert (I' : In (Subscribe me after) before).
            { assert (Nb : nth_error (before ++ hist hs) (length b) = Some (Subscribe me after)).
              { rewrite B, nth_error_app2, Nat.sub_diag by lia. reflexivity. }
              rewrite nth_error_app1 in Nb by lia. now apply nth_error_In in Nb. }
            apply fresh in I'. cbn in I'. rewrite Nat.eqb_refl in I'. discriminate. }
        assert (Ns : length (appended b) < fst e').
        { revert J. rewrite <- filter_skipn_numbered. intros J. apply filter_In in J as [_ J].
          now apply Nat.ltb_lt in J. }
        lia. }
  destruct (write_event A dumps asked e) as [f|] eqn:We; injection H as <-;
    constructor; rewrite ?X, ?Y; fields; rewrite ?Z; auto; try congruence;
    try (intros T; (apply calm_snoc in T as [T _] || apply no_reset_snoc in T as [T _]); auto; fail).
  - now rewrite after_ops_snoc, L.
  - rewrite Sr. split; [reflexivity|]. split; [discriminate|]. exists b, (l ++ [Send me]). auto.
  - rewrite Sr. destruct (write_event_some _ _ We) as [-> Se].
    exists a, (out ++ [e]), (if down_end A V w then lost ++ frame e else []).
    split; [exact INC|]. split.
    { intros e' I. destruct (In_e e' I) as [I1 I2]. split; [assumption|]. split; [|assumption].
      apply in_app_iff in I as [I|[<-|[]]]; [now apply P2|assumption]. }
    split; [right; split; [assumption|discriminate]|].
    split; [now intros ->|]. split; [now intros _|].
    assert (T : forall x y z, x ++ y ++ lost = z ->
              x ++ (if down_end A V w then y else y ++ frame e) ++ (if down_end A V w then lost ++ frame e else [])
              = z ++ frame e).
    { intros x y z <-. destruct (down_end A V w); [|rewrite (P4 eq_refl)]; rewrite ?app_nil_r; now rewrite !app_assoc. }
    assert (Fe : forall o, frames (o ++ [e]) = frames o ++ frame e).
    { intros o'. rewrite frames_app. cbn [frames flat_map]. now rewrite app_nil_r. }
    destruct (cli A V w).
    + destruct P6 as [P6 P7]. split; [assumption|]. etransitivity; [exact (T _ _ _ P7)|]. now rewrite Fe, <- app_assoc.
    + destruct P6 as (o1 & o2 & O1 & O2 & O3). exists o1, (o2 ++ [e]).
      split; [now rewrite O1, app_assoc|]. split; [assumption|]. etransitivity; [exact (T _ _ _ O3)|]. now rewrite Fe.
    + destruct P6 as (o1 & o2 & O1 & O2). exists o1, (o2 ++ [e]). split; [now rewrite O1, app_assoc|assumption].
  - rewrite Sr. intros T. apply calm_snoc in T as [T _]. auto.
  - now rewrite after_ops_snoc, L.
  - split; [reflexivity|]. split.
    + intros _. exists e. split; [|assumption]. apply In_e, in_app_iff. right. now left.
    + exists b, (l ++ [Send me]). auto.
  - exists a, out, lost. repeat (split; [assumption|]). split; [right; split; [assumption|discriminate]|].
    split; [assumption|]. split; [discriminate|assumption].
  - intros T. apply calm_snoc in T as [T _]. destruct (K T) as (K1 & K2 & _).
    split; [assumption|split; [assumption|discriminate]].
Qed.

Lemma Inv_notices hs w w' : Inv hs w -> step w (ServerNotices A) = Some w' -> Inv (hs ++ [ServerNotices A]) w'.
Proof.
  intros [L S Q N P E C R K D] H. cbn [EventStreamModel.step] in H.
  assert (X : before ++ hist (hs ++ [ServerNotices A]) = (before ++ hist hs) ++ [Unsubscribe me])
    by (now rewrite hist_app, app_assoc).
  assert (Y : all (hs ++ [ServerNotices A]) = all hs) by now apply quiet_all.
  destruct (srv A V w) as [|k n|k s|] eqn:Sr; try discriminate. destruct S as (-> & _ & b & l & B & St).
  destruct (up A V w) eqn:U; [|discriminate]. destruct (up_end A V w) eqn:Ue; [|discriminate]. injection H as <-.
  assert (Z : upd_log A (logs A V w) asked (unsubscribe me (logs A V w asked)) asked = unsubscribe me (logs A V w asked)).
  { unfold upd_log. destruct (dec asked asked); congruence. }
  constructor; rewrite ?X, ?Y; fields; rewrite ?Z; auto; try congruence;
    try (intros T; (apply calm_snoc in T as [T _] || apply no_reset_snoc in T as [T _]); auto; fail).
  - now rewrite after_ops_snoc, L.
  - unfold unsubscribe; cbn [l_subs]. apply get_del_eq.
  - destruct P as (a & out & lost & P1 & P2 & P3 & P4 & P5 & P6). rewrite ?Sr in *.
    exists a, out, lost. repeat (split; [assumption|]).
    split; [right; split; [|discriminate]; destruct P3 as [(-> & _ & [P3|[P3 _]])|[-> _]]; try discriminate; reflexivity|].
    split; [discriminate|]. auto.
  - rewrite Ue. exact C.
  - intros T. apply calm_snoc in T as [T _]. destruct (K T) as (K1 & K2 & _).
    destruct (E eq_refl) as [E1|E1]; [|congruence]. destruct (C E1) as [_ [h Hh]]. now apply K1 in Hh.
Qed.

Lemma Inv_client hs w w' : Inv hs w -> step w (ClientReads A) = Some w' -> Inv (hs ++ [ClientReads A]) w'.
Proof.
  intros [L S Q N P E C R K D] H. cbn [EventStreamModel.step] in H.
  assert (X : hist (hs ++ [ClientReads A]) = hist hs) by now apply quiet_hist.
  assert (Y : all (hs ++ [ClientReads A]) = all hs) by now apply quiet_all.
  destruct P as (a & out & lost & P1 & P2 & P3 & P4 & P5 & P6).
  destruct (cli A V w) eqn:Cl; [| |discriminate].
  - (* the answer *)
    destruct P6 as [P6 P7]. unfold read_answer in H.
    assert (Ra : (exists r c, run read_str (cbuf A V w) = Blocked r c) \/
      (exists rest, run read_str (cbuf A V w) = Done uuid rest /\ srv A V w <> Reading /\
         (rest = [] \/ exists rest', rest = command_byte COMPLETE :: rest' /\ rest' ++ down A V w ++ lost = frames out))).
    { destruct P3 as [(-> & -> & _)|[-> P3]].
      - apply app_eq_nil in P7 as [-> _]. left. apply run_str_nil.
      - destruct (read_answers _ _ _ P7) as [J|(rest & J1 & J2)]; [left; assumption|right; exists rest; auto]. }
    destruct Ra as [(r & c & Rd)|(rest & Rd & Sr & Re)]; rewrite Rd in H.
    + destruct (at_end A V w) eqn:At; [|discriminate]. injection H as <-. apply at_end_eq in At as [A1 A2].
      constructor; rewrite ?X, ?Y; fields; auto; try discriminate.
      * exists a, out, lost. repeat (split; [assumption|]). exists [], out. now rewrite P6.
      * intros Hc. destruct (C Hc) as [? [h ?]]. eauto.
      * intros T. apply calm_snoc in T as [T _]. destruct (K T) as (? & ? & ?). congruence.
    + rewrite id_ok in H. cbn [negb] in H. destruct Re as [->|(rest' & -> & Re)].
      * destruct (at_end A V w) eqn:At; [|discriminate]. injection H as <-. apply at_end_eq in At as [A1 A2].
        constructor; rewrite ?X, ?Y; fields; auto; try discriminate; try congruence.
        -- exists a, out, lost. repeat (split; [assumption|]). exists [], out. now rewrite P6.
        -- eauto.
        -- intros T. apply calm_snoc in T as [T _]. destruct (K T) as (? & ? & ?). congruence.
      * destruct (Byte.byte_eq_dec _ _) as [_|Ne]; [|congruence]. injection H as <-.
        constructor; rewrite ?X, ?Y; fields; auto; try discriminate.
        -- exists a, out, lost. repeat (split; [assumption|]). exists [], out. now rewrite P6.
        -- intros Hc. destruct (C Hc) as [? [h ?]]. discriminate.
        -- intros T. apply calm_snoc in T as [T _]. destruct (K T) as (? & ? & ?). split; [discriminate|split; assumption].
  - (* an event *)
    destruct P6 as (o1 & o2 & O1 & O2 & O3). unfold next_event in H.
    specialize (N eq_refl).
    assert (Fo : forall e, In e o2 -> sendable e).
    { intros e I. apply P2. rewrite O1. apply in_app_iff. auto. }
    destruct (read_events _ _ _ Fo O3) as [(r & c & Rd)|(e & r & rest & -> & Rd & Re)]; rewrite Rd in H.
    + destruct (at_end A V w) eqn:At; [|discriminate]. injection H as <-. apply at_end_eq in At as [A1 A2].
      constructor; rewrite ?X, ?Y; fields; auto; try discriminate; try congruence.
      * exists a, out, lost. repeat (split; [assumption|]). exists o1, o2. auto.
      * eauto.
      * intros T. apply calm_snoc in T as [T _]. destruct (K T) as (? & ? & ?). congruence.
    + injection H as <-.
      constructor; rewrite ?X, ?Y; fields; auto; try discriminate; try congruence.
      * rewrite Cl. exists a, out, lost. repeat (split; [assumption|]). exists (o1 ++ [e]), r.
        split; [rewrite O1, <- app_assoc; reflexivity|]. split; [|assumption].
        rewrite O2, map_app. reflexivity.
      * rewrite Cl. intros Hc. destruct (C Hc) as [? [h ?]]. discriminate.
      * rewrite Cl. intros T. apply calm_snoc in T as [T _]. destruct (K T) as (? & ? & ?). split; [discriminate|split; assumption].
Qed.

Lemma Inv_disturb hs w h w' : (h = ClientLeaves A \/ (exists n, h = Cut A n) \/ h = Reset A) ->
  Inv hs w -> step w h = Some w' -> Inv (hs ++ [h]) w'.
Proof.
  intros Hh [L S Q N P E C R K D] H.
  assert (X : hist (hs ++ [h]) = hist hs)
    by (apply quiet_hist; destruct Hh as [->|[(n & ->)| ->]]; reflexivity).
  assert (Y : all (hs ++ [h]) = all hs)
    by (apply quiet_all; destruct Hh as [->|[(n & ->)| ->]]; reflexivity).
  destruct P as (a & out & lost & P1 & P2 & P3 & P4 & P5 & P6).
  destruct Hh as [->|[(n & ->)| ->]]; cbn [EventStreamModel.step] in H.
  - (* the consumer leaves *)
    destruct (cli A V w) eqn:Cl; [| |discriminate]; injection H as <-;
      (constructor; rewrite ?X, ?Y; fields; auto; try discriminate;
       try (intros T; apply calm_snoc in T as [_ []])).
    + exists a, out, lost. repeat (split; [assumption|]). exists [], out. destruct P6 as [-> _]. auto.
    + intros Hc. destruct (C Hc) as [? [h ?]]. discriminate.
    + intros Sr. destruct (N eq_refl Sr).
    + exists a, out, lost. repeat (split; [assumption|]). destruct P6 as (o1 & o2 & O1 & O2 & _). eauto.
    + eauto.
  - (* the connection is cut *)
    destruct (down_end A V w) eqn:De; [discriminate|]. injection H as <-.
    rewrite (P4 eq_refl) in *. rewrite app_nil_r in *.
    constructor; rewrite ?X, ?Y; fields; auto; try discriminate.
    + intros Sr. destruct (Q Sr) as (lo & Q1 & Q2). exists (up A V w ++ lo). split; [exact Q1|discriminate].
    + exists a, out, (skipn n (down A V w)). repeat (split; [assumption|]).
      split; [destruct P3 as [(-> & -> & [P3|[P3 P3']])|P3]; [left; auto 6|discriminate|right; assumption]|].
      split; [discriminate|]. split; [assumption|].
      destruct (cli A V w); rewrite ?firstn_skipn; assumption.
    + intros Hc. destruct (C Hc) as [? [h ?]]. eauto.
    + intros T. apply calm_snoc in T as [_ []].
    + intros T. apply no_reset_snoc in T as [T _]. auto.
  - (* reset *)
    destruct (cli A V w) eqn:Cl; [| |discriminate]; injection H as <-;
      (constructor; rewrite ?X, ?Y; fields; auto; try discriminate;
       try (intros T; apply calm_snoc in T as [_ []]);
       try (intros T; apply no_reset_snoc in T as [_ T]; congruence)).
    + intros Sr. destruct (Q Sr) as (lo & Q1 & Q2). exists (up A V w ++ lo). split; [exact Q1|discriminate].
    + exists a, out, []. repeat (split; [assumption|]).
      split; [destruct P3 as [(-> & -> & [P3|[P3 P3']])|P3]; [left; auto 6|left; auto 6|right; assumption]|].
      split; [auto|]. split; [assumption|]. exists [], out. destruct P6 as [-> _]. auto.
    + intros Hc. destruct (C Hc) as [? [h ?]]. discriminate.
    + intros Sr. destruct (N eq_refl Sr).
    + exists a, out, []. repeat (split; [assumption|]).
      split; [destruct P3 as [(-> & -> & [P3|[P3 P3']])|P3]; [left; auto 6|left; auto 6|right; assumption]|].
      split; [auto|]. split; [assumption|]. destruct P6 as (o1 & o2 & O1 & O2 & _). eauto.
    + eauto.
Qed.

Lemma Inv_step hs w h w' : Inv hs w -> step w h = Some w' -> Inv (hs ++ [h]) w'.
Proof.
  intros I H. destruct h.
  - now apply Inv_log with w.
  - eapply Inv_arrive; eauto.
  - eapply Inv_arrive; eauto.
  - now apply Inv_server_reads with w.
  - now apply Inv_registers with w.
  - now apply Inv_sends with w.
  - now apply Inv_notices with w.
  - now apply Inv_client with w.
  - eapply Inv_disturb; eauto.
  - eapply Inv_disturb; eauto.
  - eapply Inv_disturb; eauto.
Qed.

Lemma Inv_from hs : forall hs0 w w', Inv hs0 w -> steps w hs = Some w' -> Inv (hs0 ++ hs) w'.
Proof.
  induction hs as [|h hs IH]; intros hs0 w w' I H; cbn [EventStreamModel.steps] in H.
  - injection H as <-. now rewrite app_nil_r.
  - destruct (step w h) as [w1|] eqn:E; [|discriminate].
    change (h :: hs) with ([h] ++ hs). rewrite app_assoc. eapply IH; [|exact H]. eapply Inv_step; eauto.
Qed.

Lemma Inv_run hs w : steps start hs = Some w -> Inv hs w.
Proof. intros H. exact (Inv_from hs [] start w Inv_start H). Qed.


(** *** Progress *)

Lemma step_arrive_up w : up A V w <> [] -> step w (ArriveUp A 1) <> None.
Proof.
  intros N. cbn [EventStreamModel.step]. destruct (up A V w) as [|b r]; [congruence|]. discriminate.
Qed.

Lemma step_arrive_down w : down A V w <> [] -> step w (ArriveDown A 1) <> None.
Proof.
  intros N. cbn [EventStreamModel.step]. destruct (down A V w) as [|b r]; [congruence|]. discriminate.
Qed.

Notation rest := (at_rest (A := A) (V := V) step).

Lemma rest_up w : rest w -> up A V w = [].
Proof.
  intros Q. destruct (up A V w) eqn:U; [reflexivity|]. exfalso.
  assert (H : step w (ArriveUp A 1) = None) by now apply Q. revert H. apply step_arrive_up. congruence.
Qed.

Lemma rest_down w : rest w -> down A V w = [].
Proof.
  intros Q. destruct (down A V w) eqn:U; [reflexivity|]. exfalso.
  assert (H : step w (ArriveDown A 1) = None) by now apply Q. revert H. apply step_arrive_down. congruence.
Qed.

(** The handler has read the request and registered the subscriber, or given up. *)
Lemma rest_srv hs w : Inv hs w -> rest w ->
  (exists s, srv A V w = Serving asked s /\ up_end A V w = false) \/ srv A V w = Gone \/
  srv A V w = Reading /\ down_end A V w = true.
Proof.
  intros [L S Q N P E C R K D] Re. pose proof (rest_up w Re) as U.
  destruct (srv A V w) as [|k n|k s|] eqn:Sr.
  - right. right. split; [reflexivity|]. destruct (down_end A V w) eqn:De; [reflexivity|]. exfalso.
    destruct (Q eq_refl) as (lost & Q1 & Q2). destruct (Q2 eq_refl) as [-> _]. rewrite U in Q1.
    assert (H : step w (ServerReads A) = None) by now apply Re. cbn [EventStreamModel.step] in H. rewrite Sr in H.
    destruct (read_requests _ _ Q1) as [(r & c & Rd)|(re & Rd & Re')]; rewrite Rd in H.
    + cbn [app] in Q1. rewrite app_nil_r in Q1. rewrite Q1, read_request in Rd. discriminate.
    + rewrite ans_ok in H. discriminate.
  - exfalso. assert (H : step w (ServerRegisters A) = None) by now apply Re.
    cbn [EventStreamModel.step] in H. rewrite Sr in H. discriminate.
  - destruct S as (-> & _). left. exists s. split; [reflexivity|].
    destruct (up_end A V w) eqn:Ue; [|reflexivity]. exfalso.
    assert (H : step w (ServerNotices A) = None) by now apply Re.
    cbn [EventStreamModel.step] in H. rewrite Sr, U, Ue in H. discriminate.
  - auto.
Qed.

(** The client has seen the end, or has read everything. *)
Lemma rest_cli hs w : Inv hs w -> rest w -> down_end A V w = true -> exists h, cli A V w = Over h.
Proof.
  intros I Re De. pose proof (rest_down w Re) as Dn. destruct I as [L S Q N P E C R K D].
  destruct P as (a & out & lost & P1 & P2 & P3 & P4 & P5 & P6).
  assert (At : at_end A V w = true) by (unfold at_end; now rewrite De, Dn).
  assert (H : step w (ClientReads A) = None) by now apply Re. cbn [EventStreamModel.step] in H.
  destruct (cli A V w) as [| |h]; [| |eauto]; exfalso.
  - unfold read_answer in H. rewrite At in H. destruct (run read_str (cbuf A V w)) as [u re|r c|]; try discriminate.
    destruct (uuid_ok u); [|discriminate]. cbn [negb] in H. destruct re; [discriminate|].
    destruct (Byte.byte_eq_dec _ _); discriminate.
  - unfold next_event in H. rewrite At in H. destruct (run read_event (cbuf A V w)) as [[v|] re|r c|]; discriminate.
Qed.

Lemma rest_calm hs w : Inv hs w -> rest w -> (forall h, In h hs -> undisturbed h) ->
  (forall e, In e (numbered (all hs)) -> write_event A dumps asked e <> None) ->
  srv A V w = Serving asked true /\ waiting (logs A V w asked) me = [] /\
  yielded A V w = map (of_event asked) (written (logs A V w asked) me).
Proof.
  intros I Re Ca Sz. pose proof (rest_down w Re) as Dn. pose proof (rest_srv _ _ I Re) as Sr.
  destruct I as [L S Q N P E C R K D]. destruct (K Ca) as (K1 & K2 & K3).
  destruct P as (a & out & lost & P1 & P2 & P3 & P4 & P5 & P6). rewrite (P4 K2), Dn in *. rewrite app_nil_r in *.
  assert (H : step w (ClientReads A) = None) by now apply Re. cbn [EventStreamModel.step] in H.
  destruct Sr as [(s & Sr & Ue)|[Sr|[_ Sr]]]; [|congruence..]. rewrite Sr in *.
  destruct S as (_ & Sd & _). destruct s.
  2:{ exfalso. destruct (Sd eq_refl) as (e & I1 & I2). now apply (Sz e I1). }
  split; [reflexivity|]. specialize (P5 eq_refl). split.
  - assert (Hs : step w (ServerSends A) = None) by now apply Re. cbn [EventStreamModel.step] in Hs. rewrite Sr in Hs.
    unfold waiting. destruct (get me (l_subs (logs A V w asked))) as [[[|e q] o]|]; [reflexivity| |reflexivity].
    destruct (write_event A dumps asked e); discriminate.
  - assert (At : at_end A V w = false) by (unfold at_end; now rewrite K2).
    rewrite <- P5. destruct (cli A V w) as [| |h]; [| |now destruct (K1 h)].
    + exfalso. destruct P6 as [_ P6]. destruct P3 as [(_ & _ & [P3|[P3 _]])|[-> _]]; try discriminate.
      unfold read_answer in H. destruct (run_answer (frames out)) as (u & _ & _ & Ra).
      rewrite P6, Ra, id_ok in H. cbn [negb] in H. destruct (Byte.byte_eq_dec _ _); [discriminate|congruence].
    + destruct P6 as (o1 & o2 & O1 & O2 & O3). destruct o2 as [|e o2].
      { now rewrite O1, app_nil_r. }
      exfalso. assert (Se : sendable e) by (apply P2; rewrite O1; apply in_app_iff; right; now left).
      unfold next_event in H. rewrite O3 in H. cbn [frames flat_map] in H.
      rewrite run_event in H by assumption. discriminate.
Qed.


(** *** Everything owed arrives *)

Lemma serving_step hs w h w' : Inv hs w -> (forall x, In x (hs ++ [h]) -> undisturbed x) ->
  (exists s, srv A V w = Serving asked s) -> step w h = Some w' ->
  stays me (hist [h]) /\ exists s, srv A V w' = Serving asked s.
Proof.
  intros I Ca (s & Sr) H. apply calm_snoc in Ca as [Ca _]. pose proof (i_calm _ _ I Ca) as (K1 & K2 & K3).
  assert (Ue : up_end A V w = false).
  { destruct (up_end A V w) eqn:Ue; [|reflexivity]. exfalso. destruct (i_end _ _ I Ue) as [Cl|De]; [|congruence].
    destruct (i_closed _ _ I Cl) as [_ [h' Hh]]. now apply K1 in Hh. }
  destruct h as [j op|n|n| | | | | | |n|]; cbn [EventStreamModel.step] in H;
    try (rewrite Sr in H; discriminate).
  - destruct (others A me op) eqn:O; [|discriminate]. injection H as <-. fields. split; [|eauto].
    unfold hist. cbn [flat_map]. rewrite app_nil_r. intros x Ix. destruct (dec j asked); [|destruct Ix].
    destruct Ix as [<-|[]]. now apply others_stay.
  - destruct (_ && _); [|discriminate]. injection H as <-. fields. split; [intros x []|eauto].
  - destruct (_ && _); [|discriminate]. injection H as <-. fields. split; [intros x []|eauto].
  - split; [intros x [<-|[]]; split; [|intros]; discriminate|].
    rewrite Sr in H. destruct s; [|discriminate].
    destruct (get me (l_subs (logs A V w asked))) as [[[|e q] o]|]; try discriminate.
    destruct (write_event A dumps asked e); injection H as <-; fields; eauto.
  - rewrite Sr, Ue in H. destruct (up A V w); discriminate.
  - split; [intros x []|]. destruct (cli A V w) eqn:Cl; [| |discriminate].
    + unfold read_answer in H. destruct (run read_str _); [|destruct (at_end A V w); [|discriminate]|];
        try (injection H as <-; fields; eauto).
      destruct (uuid_ok a); cbn [negb] in H; [|injection H as <-; fields; eauto].
      destruct rest as [|c rest].
      * destruct (at_end A V w); [|discriminate]. injection H as <-; fields; eauto.
      * destruct (Byte.byte_eq_dec _ _); injection H as <-; fields; eauto.
    + unfold next_event in H. destruct (run read_event _) as [[v|] re|r c|];
        [| |destruct (at_end A V w); [|discriminate]|]; injection H as <-; fields; eauto.
  - split; [intros x []|]. destruct (cli A V w); [| |discriminate]; injection H as <-; fields; eauto.
  - split; [intros x []|]. rewrite K2 in H. injection H as <-; fields; eauto.
  - split; [intros x []|]. destruct (cli A V w); [| |discriminate]; injection H as <-; fields; eauto.
Qed.

Lemma serving_steps hs2 : forall hs w w', Inv hs w -> (forall x, In x (hs ++ hs2) -> undisturbed x) ->
  (exists s, srv A V w = Serving asked s) -> steps w hs2 = Some w' -> stays me (hist hs2).
Proof.
  induction hs2 as [|h hs2 IH]; intros hs w w' I Ca Sr H; [intros x []|]. cbn [EventStreamModel.steps] in H.
  destruct (step w h) as [w1|] eqn:E; [|discriminate].
  assert (Ca1 : forall x, In x (hs ++ [h]) -> undisturbed x).
  { intros x Ix. apply Ca. apply in_app_iff in Ix as [Ix|[<-|[]]]; apply in_app_iff; [auto|right; now left]. }
  destruct (serving_step _ _ _ _ I Ca1 Sr E) as [S1 S2].
  change (h :: hs2) with ([h] ++ hs2). rewrite hist_app. intros x Ix. apply in_app_iff in Ix as [Ix|Ix].
  - now apply S1.
  - refine (IH (hs ++ [h]) w1 w' (Inv_step _ _ _ _ I E) _ S2 H x Ix).
    intros y Iy. apply Ca. rewrite <- app_assoc in Iy. exact Iy.
Qed.

Lemma hist_split a p2 : forall hs p1, hist hs = p1 ++ Append a :: p2 ->
  exists p q, hs = p ++ Log A asked (Append a) :: q /\ hist p = p1.
Proof.
  induction hs as [|h hs IH]; intros p1 H; [destruct p1; discriminate|].
  change (h :: hs) with ([h] ++ hs) in H. rewrite hist_app in H.
  assert (Skip : hist [h] = [] -> exists p q, h :: hs = p ++ Log A asked (Append a) :: q /\ hist p = p1).
  { intros E. rewrite E in H. destruct (IH p1 H) as (p & q & -> & E2). exists (h :: p), q.
    split; [reflexivity|]. change (h :: p) with ([h] ++ p). now rewrite hist_app, E. }
  assert (One : forall op, hist [h] = [op] -> (op = Append a -> h = Log A asked (Append a)) ->
            exists p q, h :: hs = p ++ Log A asked (Append a) :: q /\ hist p = p1).
  { intros op E Eq. rewrite E in H. destruct p1 as [|x p1]; cbn [app] in H; injection H as Hx H.
    - exists [], hs. rewrite (Eq Hx). auto.
    - subst x. destruct (IH p1 H) as (p & q & -> & E2). exists (h :: p), q.
      split; [reflexivity|]. change (h :: p) with ([h] ++ p). now rewrite hist_app, E, E2. }
  destruct h as [j op|n|n| | | | | | |n|]; try (now apply Skip);
    try (now (eapply One; [reflexivity|discriminate])).
  destruct (dec j asked) as [->|Ne] eqn:Dj.
  - apply (One op); [|intros ->; reflexivity]. unfold hist; cbn [flat_map]. now rewrite Dj.
  - apply Skip. unfold hist; cbn [flat_map]. now rewrite Dj.
Qed.

Lemma all_owed hs1 hs2 w : steps start (hs1 ++ ServerRegisters A :: hs2) = Some w ->
  (forall h, In h (hs1 ++ ServerRegisters A :: hs2) -> undisturbed h) ->
  rest w ->
  (forall e, In e (numbered (all (hs1 ++ ServerRegisters A :: hs2))) -> write_event A dumps asked e <> None) ->
  (forall p a q w1, hs2 = p ++ Log A asked (Append a) :: q ->
     steps start (hs1 ++ ServerRegisters A :: p) = Some w1 ->
     length (waiting (logs A V w1 asked) me) < queue_cap) ->
  yielded A V w = map (of_event asked) (due limit (before ++ hist hs1) after (hist hs2)).
Proof.
  intros H Ca Re Sz Up. pose proof (Inv_run _ _ H) as I.
  destruct (rest_calm _ _ I Re Ca Sz) as (Sr & Wa & Yi). rewrite Yi. f_equal.
  change (ServerRegisters A :: hs2) with ([ServerRegisters A] ++ hs2) in H. rewrite app_assoc, steps_app in H.
  destruct (steps start (hs1 ++ [ServerRegisters A])) as [w1|] eqn:E1; [|discriminate].
  pose proof (Inv_run _ _ E1) as I1.
  assert (Sr1 : exists s, srv A V w1 = Serving asked s).
  { rewrite steps_app in E1. destruct (steps start hs1) as [w0|] eqn:E0; [|discriminate].
    pose proof (Inv_run _ _ E0) as I0. cbn [EventStreamModel.steps] in E1.
    destruct (step w0 (ServerRegisters A)) as [w1'|] eqn:E2; [|discriminate]. injection E1 as <-.
    cbn [EventStreamModel.step] in E2. pose proof (i_srv _ _ I0) as S0.
    destruct (srv A V w0); try discriminate. destruct S0 as (-> & _). injection E2 as <-. fields. eauto. }
  assert (St : stays me (hist hs2)).
  { eapply serving_steps; [exact I1| |exact Sr1|exact H]. intros x Ix. apply Ca. now rewrite <- app_assoc in Ix. }
  pose proof (keeps_up limit me after (before ++ hist hs1) (hist hs2) St) as KU.
  assert (Hi : before ++ hist (hs1 ++ ServerRegisters A :: hs2) = (before ++ hist hs1) ++ Subscribe me after :: hist hs2).
  { rewrite hist_app, app_assoc. reflexivity. }
  rewrite (i_logs _ _ I), Hi in *. cbv zeta in KU. rewrite <- KU; [now rewrite Wa, app_nil_r|].
  intros p1 a p2 E. destruct (hist_split _ _ _ _ E) as (p & q & Ep & Eh).
  assert (exists w2, steps start (hs1 ++ ServerRegisters A :: p) = Some w2) as [w2 H2].
  { rewrite Ep in H. rewrite steps_app in H. destruct (steps w1 p) as [w2|] eqn:E2; [|discriminate].
    exists w2. change (ServerRegisters A :: p) with ([ServerRegisters A] ++ p). now rewrite app_assoc, steps_app, E1. }
  pose proof (Up p a q w2 Ep H2) as U. rewrite (i_logs _ _ (Inv_run _ _ H2)) in U.
  rewrite hist_app, app_assoc in U. change (hist (ServerRegisters A :: p)) with (Subscribe me after :: hist p) in U.
  now rewrite Eh in U.
Qed.

(** *** The end of the connection *)

(** The connection has ended; what was sent before is [target]. *)
Definition tail (target : list V) (w : world) : Prop :=
  down_end A V w = true /\
  match cli A V w with
  | Asking => yielded A V w = [] /\ exists o, (forall e, In e o -> sendable e) /\
                cbuf A V w ++ down A V w = ans ++ frames o /\ map (of_event asked) o = target
  | Listening => exists o, (forall e, In e o -> sendable e) /\
                cbuf A V w ++ down A V w = frames o /\ yielded A V w ++ map (of_event asked) o = target
  | Over h => h = Returned /\ yielded A V w = target
  end.

Lemma tail_step target w h w' : tail target w -> step w h = Some w' -> h <> ClientLeaves A -> h <> Reset A ->
  tail target w'.
Proof.
  intros [De T] H N1 N2. destruct h as [j op|n|n| | | | | | |n|]; cbn [EventStreamModel.step] in H; try congruence.
  - destruct (others A me op); [|discriminate]. injection H as <-. split; [assumption|]. fields. exact T.
  - destruct (_ && _); [|discriminate]. injection H as <-. split; [assumption|]. fields. exact T.
  - destruct (_ && _); [|discriminate]. injection H as <-. split; [assumption|]. fields.
    rewrite <- app_assoc, firstn_skipn. exact T.
  - destruct (srv A V w); try discriminate. destruct (run (read_subscribe int_of) _) as [[k n] re|r c|].
    + rewrite ans_ok in H. injection H as <-. split; [assumption|]. fields. now rewrite De.
    + destruct (up_end A V w && _); [|discriminate]. injection H as <-. split; [assumption|]. fields. exact T.
    + injection H as <-. split; [assumption|]. fields. exact T.
  - destruct (srv A V w); try discriminate. injection H as <-. split; [assumption|]. fields. exact T.
  - destruct (srv A V w) as [| |k [|]|]; try discriminate.
    destruct (get me (l_subs (logs A V w k))) as [[[|e q] o]|]; try discriminate.
    destruct (write_event A dumps k e); injection H as <-; (split; [assumption|]); fields; rewrite ?De; exact T.
  - destruct (srv A V w); try discriminate. destruct (up A V w); [|discriminate].
    destruct (up_end A V w); [|discriminate]. injection H as <-. split; [reflexivity|]. fields. exact T.
  - destruct (cli A V w) eqn:Cl; [| |discriminate].
    + destruct T as (Y & o & So & T1 & T2). unfold read_answer in H.
      destruct (read_answers _ _ _ T1) as [(r & c & Rd)|(re & Rd & J)]; rewrite Rd in H.
      * destruct (at_end A V w) eqn:At; [|discriminate]. apply at_end_eq in At as [_ Dn]. exfalso.
        rewrite Dn, app_nil_r in T1. rewrite T1 in Rd. destruct (run_answer (frames o)) as (u & _ & _ & Ra). congruence.
      * rewrite id_ok in H. cbn [negb] in H. destruct J as [->|(re' & -> & J)].
        -- destruct (at_end A V w) eqn:At; [|discriminate]. apply at_end_eq in At as [_ Dn]. exfalso.
           rewrite Dn, app_nil_r in T1. rewrite T1 in Rd. destruct (run_answer (frames o)) as (u & _ & _ & Ra). congruence.
        -- destruct (Byte.byte_eq_dec _ _); [|congruence]. injection H as <-. split; [assumption|]. fields.
           exists o. rewrite Y. auto.
    + destruct T as (o & So & T1 & T2). unfold next_event in H.
      destruct (read_events _ _ _ So T1) as [(r & c & Rd)|(e & r & re & -> & Rd & J)]; rewrite Rd in H.
      * destruct (at_end A V w) eqn:At; [|discriminate]. injection H as <-. apply at_end_eq in At as [_ Dn].
        split; [assumption|]. fields. split; [reflexivity|]. rewrite Dn, app_nil_r in T1.
        destruct o as [|e o]; [cbn in T2; now rewrite app_nil_r in T2|]. exfalso.
        rewrite T1 in Rd. cbn [frames flat_map] in Rd. rewrite run_event in Rd; [discriminate|]. apply So. now left.
      * injection H as <-. split; [assumption|]. fields. rewrite Cl. exists r. split; [intros x Ix; apply So; now right|].
        split; [assumption|]. rewrite <- app_assoc. exact T2.
  - rewrite De in H. discriminate.
Qed.

Lemma tail_steps target hs : forall w w', tail target w -> steps w hs = Some w' ->
  ~ In (ClientLeaves A) hs -> ~ In (Reset A) hs -> tail target w'.
Proof.
  induction hs as [|h hs IH]; intros w w' T H N1 N2; cbn [EventStreamModel.steps] in H; [congruence|].
  destruct (step w h) as [w1|] eqn:E; [|discriminate]. eapply IH; [|exact H|..].
  - eapply tail_step; [exact T|exact E|..]; intros ->; [apply N1|apply N2]; now left.
  - intros J. apply N1. now right.
  - intros J. apply N2. now right.
Qed.

Lemma cut_delivers hs1 n hs2 w1 w2 s : steps start hs1 = Some w1 ->
  srv A V w1 = Serving asked s -> s = true -> (forall h, cli A V w1 <> Over h) ->
  length (down A V w1) <= n ->
  steps w1 (Cut A n :: hs2) = Some w2 -> ~ In (ClientLeaves A) hs2 -> ~ In (Reset A) hs2 -> rest w2 ->
  cli A V w2 = Over Returned /\ yielded A V w2 = map (of_event asked) (written (logs A V w1 asked) me).
Proof.
  intros H1 Sr -> No Le H2 N1 N2 Re. pose proof (Inv_run _ _ H1) as I.
  assert (I2 : Inv (hs1 ++ Cut A n :: hs2) w2) by (eapply Inv_from; [exact I|exact H2]).
  cbn [EventStreamModel.steps EventStreamModel.step] in H2. destruct (down_end A V w1) eqn:De; [discriminate|].
  set (w1' := World _ _ _ _ _ _ _ _ _ _ _ _ _) in H2.
  set (target := map (of_event asked) (written (logs A V w1 asked) me)).
  assert (T : tail target w1').
  { destruct I as [L S Q N P E C R K D]. destruct P as (a & out & lost & P1 & P2 & P3 & P4 & P5 & P6).
    rewrite Sr in *. specialize (P5 eq_refl). rewrite (P4 De) in *. rewrite app_nil_r in *.
    split; [reflexivity|]. unfold w1'. fields. rewrite firstn_all2 by assumption.
    destruct (cli A V w1) as [| |h] eqn:Cl; [| |now destruct (No h)].
    - destruct P6 as [P6 P7]. split; [assumption|]. exists out. split; [intros e J; now apply P2|].
      destruct P3 as [(_ & _ & [P3|[P3 _]])|[-> _]]; try discriminate. unfold target. now rewrite <- P5.
    - destruct P6 as (o1 & o2 & O1 & O2 & O3). exists o2.
      split; [intros e J; apply P2; rewrite O1; apply in_app_iff; auto|]. split; [assumption|].
      unfold target. now rewrite O2, <- P5, O1, map_app. }
  pose proof (tail_steps target hs2 _ _ T H2 N1 N2) as [De2 T2].
  destruct (rest_cli _ _ I2 Re De2) as [h Hh]. rewrite Hh in *. destruct T2 as [-> T2]. auto.
Qed.

(** *** Once the answer is there *)

Definition open (w : world) : Prop := cli A V w = Listening \/ exists h, cli A V w = Over h /\ closed A V w = true.

Lemma open_step hs w h w' : Inv hs w -> open w -> step w h = Some w' -> open w' /\
  (cli A V w = Listening -> h <> ClientLeaves A -> h <> Reset A -> cli A V w' = Listening \/ cli A V w' = Over Returned).
Proof.
  intros I [Cl|(h0 & Cl & Cd)] H.
  - destruct h as [j op|n|n| | | | | | |n|]; cbn [EventStreamModel.step] in H.
    + destruct (others A me op); [|discriminate]. injection H as <-. unfold open. fields. auto.
    + destruct (_ && _); [|discriminate]. injection H as <-. unfold open. fields. auto.
    + destruct (_ && _); [|discriminate]. injection H as <-. unfold open. fields. auto.
    + destruct (srv A V w); try discriminate. destruct (run (read_subscribe int_of) _) as [[k n] re|r c|].
      * rewrite ans_ok in H. injection H as <-. unfold open. fields. auto.
      * destruct (up_end A V w && _); [|discriminate]. injection H as <-. unfold open. fields. auto.
      * injection H as <-. unfold open. fields. auto.
    + destruct (srv A V w); try discriminate. injection H as <-. unfold open. fields. auto.
    + destruct (srv A V w) as [| |k [|]|]; try discriminate.
      destruct (get me (l_subs (logs A V w k))) as [[[|e q] o]|]; try discriminate.
      destruct (write_event A dumps k e); injection H as <-; unfold open; fields; auto.
    + destruct (srv A V w); try discriminate. destruct (up A V w); [|discriminate].
      destruct (up_end A V w); [|discriminate]. injection H as <-. unfold open. fields. auto.
    + rewrite Cl in H. destruct I as [L S Q N P E C R K D].
      destruct P as (a & out & lost & P1 & P2 & P3 & P4 & P5 & P6). rewrite Cl in P6.
      destruct P6 as (o1 & o2 & O1 & O2 & O3). unfold next_event in H.
      assert (Fo : forall e, In e o2 -> sendable e).
      { intros e J. apply P2. rewrite O1. apply in_app_iff. auto. }
      destruct (read_events _ _ _ Fo O3) as [(r & c & Rd)|(e & r & re & -> & Rd & J)]; rewrite Rd in H.
      * destruct (at_end A V w); [|discriminate]. injection H as <-. unfold open. fields. eauto 6.
      * injection H as <-. unfold open. fields. auto.
    + rewrite Cl in H. injection H as <-. unfold open. fields. split; [eauto|congruence].
    + destruct (down_end A V w); [discriminate|]. injection H as <-. unfold open. fields. auto.
    + rewrite Cl in H. injection H as <-. unfold open. fields. split; [eauto|congruence].
  - split; [|congruence]. right. exists h0.
    destruct h as [j op|n|n| | | | | | |n|]; cbn [EventStreamModel.step] in H; try (rewrite Cl in H; discriminate).
    + destruct (others A me op); [|discriminate]. injection H as <-. fields. auto.
    + destruct (_ && _); [|discriminate]. injection H as <-. fields. auto.
    + destruct (_ && _); [|discriminate]. injection H as <-. fields. auto.
    + destruct (srv A V w); try discriminate. destruct (run (read_subscribe int_of) _) as [[k n] re|r c|].
      * rewrite ans_ok in H. injection H as <-. fields. auto.
      * destruct (up_end A V w && _); [|discriminate]. injection H as <-. fields. auto.
      * injection H as <-. fields. auto.
    + destruct (srv A V w); try discriminate. injection H as <-. fields. auto.
    + destruct (srv A V w) as [| |k [|]|]; try discriminate.
      destruct (get me (l_subs (logs A V w k))) as [[[|e q] o]|]; try discriminate.
      destruct (write_event A dumps k e); injection H as <-; fields; auto.
    + destruct (srv A V w); try discriminate. destruct (up A V w); [|discriminate].
      destruct (up_end A V w); [|discriminate]. injection H as <-. fields. auto.
    + destruct (down_end A V w); [discriminate|]. injection H as <-. fields. auto.
Qed.

Lemma open_steps hs2 : forall hs w w', Inv hs w -> open w -> steps w hs2 = Some w' -> open w'.
Proof.
  induction hs2 as [|h hs2 IH]; intros hs w w' I O H; cbn [EventStreamModel.steps] in H; [congruence|].
  destruct (step w h) as [w1|] eqn:E; [|discriminate].
  eapply (IH (hs ++ [h])); [eapply Inv_step; eauto| |exact H]. now apply (open_step _ _ _ _ I O E).
Qed.

Lemma over_step w h w' h0 : cli A V w = Over h0 -> step w h = Some w' -> cli A V w' = Over h0.
Proof.
  intros Cl H. destruct h as [j op|n|n| | | | | | |n|]; cbn [EventStreamModel.step] in H; try (rewrite Cl in H; discriminate).
  - destruct (others A me op); [|discriminate]. injection H as <-. fields. auto.
  - destruct (_ && _); [|discriminate]. injection H as <-. fields. auto.
  - destruct (_ && _); [|discriminate]. injection H as <-. fields. auto.
  - destruct (srv A V w); try discriminate. destruct (run (read_subscribe int_of) _) as [[k n] re|r c|].
    + rewrite ans_ok in H. injection H as <-. fields. auto.
    + destruct (up_end A V w && _); [|discriminate]. injection H as <-. fields. auto.
    + injection H as <-. fields. auto.
  - destruct (srv A V w); try discriminate. injection H as <-. fields. auto.
  - destruct (srv A V w) as [| |k [|]|]; try discriminate.
    destruct (get me (l_subs (logs A V w k))) as [[[|e q] o]|]; try discriminate.
    destruct (write_event A dumps k e); injection H as <-; fields; auto.
  - destruct (srv A V w); try discriminate. destruct (up A V w); [|discriminate].
    destruct (up_end A V w); [|discriminate]. injection H as <-. fields. auto.
  - destruct (down_end A V w); [discriminate|]. injection H as <-. fields. auto.
Qed.

Lemma listening_steps hs2 : forall hs w w', Inv hs w -> cli A V w = Listening \/ cli A V w = Over Returned ->
  steps w hs2 = Some w' -> ~ In (ClientLeaves A) hs2 -> ~ In (Reset A) hs2 ->
  cli A V w' = Listening \/ cli A V w' = Over Returned.
Proof.
  induction hs2 as [|h hs2 IH]; intros hs w w' I O H N1 N2; cbn [EventStreamModel.steps] in H; [congruence|].
  destruct (step w h) as [w1|] eqn:E; [|discriminate].
  eapply (IH (hs ++ [h])); [eapply Inv_step; eauto| |exact H|intros J; apply N1; now right|intros J; apply N2; now right].
  destruct O as [O|O].
  - eapply open_step; [exact I|left; exact O|exact E|exact O|..]; intros ->; [apply N1|apply N2]; now left.
  - right. eapply over_step; eauto.
Qed.

(** *** Things come to rest *)

Definition weight (l : list (event A)) : nat := list_sum (map (fun e => S (2 * length (frame e))) l).

Definition work (w : world) : nat :=
  length (up A V w) + 2 * length (down A V w) + length (cbuf A V w) +
  match cli A V w with Asking => 2 | Listening => 1 | Over _ => 0 end +
  match srv A V w with
  | Reading => 3 + 2 * length ans + weight (lastn queue_cap (events_after after (logs A V w asked)))
  | Answered _ _ => 2 + weight (lastn queue_cap (events_after after (logs A V w asked)))
  | Serving _ _ => 1 + weight (waiting (logs A V w asked) me)
  | Gone => 0
  end.

Lemma work_step hs w h w' : Inv hs w -> internal h = true -> step w h = Some w' -> work w' < work w.
Proof.
  intros I In H. unfold work.
  destruct h as [j op|n|n| | | | | | |n|]; try discriminate In; cbn [EventStreamModel.step] in H.
  - destruct ((0 <? n) && _) eqn:B; [|discriminate]. injection H as <-. fields.
    apply andb_true_iff in B as [B1 B2]. apply Nat.ltb_lt in B1. apply Nat.leb_le in B2.
    rewrite skipn_length. lia.
  - destruct ((0 <? n) && _) eqn:B; [|discriminate]. injection H as <-. fields.
    apply andb_true_iff in B as [B1 B2]. apply Nat.ltb_lt in B1. apply Nat.leb_le in B2.
    rewrite skipn_length, app_length, firstn_length. lia.
  - pose proof (i_req _ _ I) as Q. destruct (srv A V w) eqn:Sr; try discriminate. destruct (Q eq_refl) as (lost & Q1 & Q2).
    destruct (read_requests _ _ Q1) as [(r & c & Rd)|(re & Rd & Re')]; rewrite Rd in H.
    + destruct (up_end A V w && _); [|discriminate]. injection H as <-. fields. lia.
    + rewrite ans_ok in H. injection H as <-. fields. destruct (down_end A V w); rewrite ?app_length; lia.
  - pose proof (i_srv _ _ I) as S. destruct (srv A V w) eqn:Sr; try discriminate. destruct S as (-> & -> & G).
    injection H as <-. fields. unfold waiting, upd_log. destruct (dec asked asked); [|congruence].
    unfold subscribe; cbn [l_subs]. rewrite get_put_eq. cbn [q_queue]. rewrite fold_queue. lia.
  - pose proof (i_srv _ _ I) as S. destruct (srv A V w) as [| |k [|]|] eqn:Sr; try discriminate. destruct S as (-> & _).
    destruct (get me (l_subs (logs A V w asked))) as [[[|e q] o]|] eqn:G; try discriminate.
    assert (Wa : waiting (logs A V w asked) me = e :: q) by (unfold waiting; now rewrite G).
    assert (Wb : waiting (upd_log A (logs A V w) asked (send me (logs A V w asked)) asked) me = q).
    { unfold upd_log. destruct (dec asked asked); [|congruence]. unfold waiting, send. rewrite G. cbn [q_queue q_out l_subs].
      now rewrite get_put_eq. }
    destruct (write_event A dumps asked e) as [f|] eqn:We; injection H as <-; fields; rewrite Wb, Wa, ?Sr; cbn [weight map list_sum fold_right].
    + apply write_event_some in We as [-> _]. unfold weight. cbn [map list_sum fold_right].
      destruct (down_end A V w); rewrite ?app_length; unfold list_sum; lia.
    + unfold weight. cbn [map list_sum fold_right]. unfold list_sum; lia.
  - destruct (srv A V w) eqn:Sr; try discriminate. destruct (up A V w) eqn:U; [|discriminate].
    destruct (up_end A V w); [|discriminate]. injection H as <-. fields. rewrite ?U. lia.
  - destruct (cli A V w) eqn:Cl; [| |discriminate].
    + unfold read_answer in H. pose proof (run_rest_le read_str (cbuf A V w)) as Le.
      destruct (run read_str _) as [u re|r c|]; [|destruct (at_end A V w); [|discriminate]|];
        try (injection H as <-; fields; lia).
      destruct (uuid_ok u); cbn [negb] in H; [|injection H as <-; fields; lia].
      destruct re as [|c re].
      * destruct (at_end A V w); [|discriminate]. injection H as <-; fields; lia.
      * cbn [length] in Le. destruct (Byte.byte_eq_dec _ _); injection H as <-; fields; lia.
    + unfold next_event in H.
      assert (Pr : productive read_event) by exact Logic.I.
      pose proof (productive_done read_event (cbuf A V w)) as Le.
      destruct (run read_event _) as [[v|] re|r c|];
        [| |destruct (at_end A V w); [|discriminate]|]; injection H as <-; fields; rewrite ?Cl; try lia.
      specialize (Le _ _ Pr eq_refl). lia.
Qed.

Lemma work_steps hs2 : forall hs w w', Inv hs w -> (forall h, In h hs2 -> internal h = true) ->
  steps w hs2 = Some w' -> length hs2 + work w' <= work w.
Proof.
  induction hs2 as [|h hs2 IH]; intros hs w w' I F H; cbn [EventStreamModel.steps] in H.
  - injection H as <-. reflexivity.
  - destruct (step w h) as [w1|] eqn:E; [|discriminate].
    pose proof (work_step _ _ _ _ I (F h (or_introl eq_refl)) E).
    pose proof (IH (hs ++ [h]) w1 w' (Inv_step _ _ _ _ I E) (fun x J => F x (or_intror J)) H). cbn [length]. lia.
Qed.

End Proofs.
