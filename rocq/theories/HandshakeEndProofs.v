(* Proofs for C85: the handshakes from beginning to end. *)

From Coq Require Import List NArith ZArith Arith Bool Lia.
From Coq Require Import Strings.Byte.
From Verif Require Import CodecModel CodecProofs StreamModel AddressModel AddressProps Dict HandshakeModel HandshakeSpec
  HandshakeNetProofs HandshakeProofs.
Import ListNotations.

Arguments wr_str : simpl never.
Arguments rd_str : simpl never.
Arguments wr_int : simpl never.
Arguments rd_int : simpl never.
Arguments wr_cmd : simpl never.
Arguments rd_uuid : simpl never.
Arguments rd_address : simpl never.
Arguments is_cmd : simpl never.
Arguments command_byte : simpl never.
Arguments show_uuid : simpl never.
Arguments str_address : simpl never.
Arguments idle : simpl never.
Arguments new_conn : simpl never.
Arguments half : simpl never.
Arguments N.ltb : simpl never.

(** What a command byte says. *)
Ltac commands :=
  repeat match goal with
  | |- context [is_cmd (Some (command_byte ?a)) ?m] =>
      let v := eval vm_compute in (is_cmd (Some (command_byte a)) m) in
      change (is_cmd (Some (command_byte a)) m) with v
  end.

Ltac tidy := cbn [set_nth start p_prog p_locked n_procs n_conns n_lock]; cbv beta; commands; cbv iota.

Ltac ends_ok := solve [split; [discriminate|auto]].

(** One exchange between [i] and [j]. *)
Tactic Notation "exchange" uconstr(L) constr(i) constr(j) :=
  eapply goes_trans; [eapply (L i j); cycle 2; [reflexivity|reflexivity|reflexivity|ends_ok|try assumption]|tidy].
Tactic Notation "command" constr(i) constr(j) :=
  eapply goes_trans; [eapply (x_cmd i j); cycle 1; [reflexivity|reflexivity|reflexivity|ends_ok]|tidy].
Tactic Notation "connect" constr(i) constr(j) :=
  eapply goes_trans; [eapply (x_dial i j); [discriminate|reflexivity|reflexivity|reflexivity]|tidy].

Section Situations.
Variables (s : server) (server_at : address) (peer : pystr) (id : uuid) (attach : pystr -> bool).
Hypothesis Hv : sendable (sv_version s).
Hypothesis Hid : id_ok id.

Lemma publisher_goes topic num_buffers buf_size bound name :
  sendable topic -> fits64 num_buffers -> fits64 buf_size -> address_ok bound ->
  sv_new_shm s num_buffers buf_size = Some name -> sendable name -> attach name = true ->
  goes (publisher_net s server_at peer id false attach topic num_buffers buf_size (Some bound))
    (mkNet [mkProc (Return (Publisher id topic name num_buffers)) false;
            mkProc (Return (Registered (PublisherInfo id topic bound peer))) false;
            mkProc (Return (Leased name)) false]
           [idle 0 1 (Some server_at); idle 0 2 (Some server_at)] false).
Proof.
  intros Ht Hn Hb Ha Hs Hname Hat.
  unfold publisher_net, publisher_create, create_shm, open_connection, api, api_publish, start.
  connect 0 1. exchange x_str 1 0.
  connect 0 2. exchange x_str 2 0.
  command 0 2. exchange x_int 0 2. exchange x_int 0 2. rewrite Hs. unfold api_shm.
  command 2 0. exchange x_str 2 0. rewrite Hat.
  command 0 1. eapply goes_trans; [eapply (x_lock 1); reflexivity|tidy].
  exchange x_str 0 1. exchange x_uuid 1 0. exchange x_address 0 1. command 1 0.
  eapply goes_trans; [eapply (x_unlock 1); reflexivity|tidy].
  apply goes_refl.
Qed.

(** The channel. *)
Ltac channel_begins Hg :=
  unfold channel_net, channel_create, attach_shm, open_connection, channel_connect, api, api_channel, start;
  connect 0 1; exchange x_str 1 0; command 0 1; exchange x_uuid 0 1; rewrite Hg.

Ltac channel_meets :=
  command 1 0; exchange x_str 1 0; [apply show_uuid_sendable|]; tidy; exchange x_address 1 0;
  connect 0 2; command 0 2; exchange x_uuid 0 2; exchange x_str 2 0; exchange x_str 2 0;
  connect 0 3; exchange x_str 3 0; command 0 3; exchange x_str 0 3; unfold api_shm.

Ltac channel_finishes Hb :=
  command 0 2; exchange x_int 0 2;
  rewrite Hb;
  eapply goes_trans; [eapply (x_cmd_int 2 0); cycle 1; [exact Hb|reflexivity|reflexivity|tidy; reflexivity|reflexivity|ends_ok]|tidy].

Variables (pid : N) (pub_id pub_entry_id : uuid) (t0 : pystr) (addr : address) (pub_peer topic shm : pystr)
  (num_buffers : N) (lock : bool).
Hypothesis Ht : sendable topic.
Hypothesis Hs : sendable shm.
Hypothesis Hn : fits64 num_buffers.
Hypothesis Hn0 : (0 < num_buffers)%N.
Hypothesis Hpid : fits64 pid.
Hypothesis Hpub : id_ok pub_id.

Notation cnet := (channel_net s server_at peer id lock attach pid pub_id).

Lemma channel_goes_shm :
  get pub_id (sv_clients s) = Some (PublisherInfo pub_entry_id t0 addr pub_peer) -> address_ok (pub_peer, snd addr) ->
  mem shm (sv_shms s) = true -> attach shm = true ->
  goes (cnet (Some (pub_peer, snd addr)) topic shm num_buffers)
    (mkNet [mkProc (Return (Channel id pub_id topic (Some shm) num_buffers)) false;
            mkProc (Return (Registered (ChannelInfo id pub_id))) false;
            mkProc (Return (Connected id pid true)) false;
            mkProc (Return (Leased shm)) false]
           [idle 0 1 (Some server_at); idle 0 2 (Some (pub_peer, snd addr)); idle 0 3 (Some server_at)] lock).
Proof.
  intros Hg Ha Hm Hat. destruct (uint64_some _ Hn) as (b & Hb).
  channel_begins Hg. channel_meets. rewrite Hm. command 3 0. exchange x_str 3 0. rewrite Hat.
  channel_finishes Hb. destruct (N.ltb_spec 0 num_buffers); [|lia]. rewrite uuid_round_trip by exact Hid. apply goes_refl.
Qed.

Lemma channel_goes_unattached :
  get pub_id (sv_clients s) = Some (PublisherInfo pub_entry_id t0 addr pub_peer) -> address_ok (pub_peer, snd addr) ->
  mem shm (sv_shms s) = true -> attach shm = false ->
  goes (cnet (Some (pub_peer, snd addr)) topic shm num_buffers)
    (mkNet [mkProc (Return (Channel id pub_id topic None num_buffers)) false;
            mkProc (Return (Registered (ChannelInfo id pub_id))) false;
            mkProc (Return (Connected id pid false)) false;
            mkProc (Return (Leased shm)) false]
           [idle 0 1 (Some server_at); idle 0 2 (Some (pub_peer, snd addr)); idle 0 3 (Some server_at)] lock).
Proof.
  intros Hg Ha Hm Hat. destruct (uint64_some _ Hn) as (b & Hb).
  channel_begins Hg. channel_meets. rewrite Hm. command 3 0. exchange x_str 3 0. rewrite Hat.
  channel_finishes Hb. destruct (N.ltb_spec 0 num_buffers); [|lia]. rewrite uuid_round_trip by exact Hid. apply goes_refl.
Qed.

Definition dead_conn (f t : nat) (a : option address) : conn :=
  mkConn f t a true (mkWay [] [] true true) (mkWay [] [] true true).

Lemma channel_goes_no_shm :
  get pub_id (sv_clients s) = Some (PublisherInfo pub_entry_id t0 addr pub_peer) -> address_ok (pub_peer, snd addr) ->
  mem shm (sv_shms s) = false ->
  goes (cnet (Some (pub_peer, snd addr)) topic shm num_buffers)
    (mkNet [mkProc (Return (Channel id pub_id topic None num_buffers)) false;
            mkProc (Return (Registered (ChannelInfo id pub_id))) false;
            mkProc (Return (Connected id pid false)) false;
            mkProc (Return Closed) false]
           [idle 0 1 (Some server_at); idle 0 2 (Some (pub_peer, snd addr)); dead_conn 0 3 (Some server_at)] lock).
Proof.
  intros Hg Ha Hm. destruct (uint64_some _ Hn) as (b & Hb).
  channel_begins Hg. channel_meets. rewrite Hm.
  eapply goes_trans; [eapply (x_close 3 0); cycle 1; [reflexivity|reflexivity|reflexivity|ends_ok]|tidy].
  change (is_cmd None COMPLETE) with false. cbv iota.
  eapply goes_trans; [eapply (goes_step (Run 0)); reflexivity|]. tidy.
  eapply goes_trans; [eapply (goes_step (Deliver 2 true)); reflexivity|]. tidy.
  channel_finishes Hb. destruct (N.ltb_spec 0 num_buffers); [|lia]. rewrite uuid_round_trip by exact Hid. apply goes_refl.
Qed.

Lemma channel_goes_unknown pub_at :
  (forall i t a p, get pub_id (sv_clients s) <> Some (PublisherInfo i t a p)) ->
  goes (cnet pub_at topic shm num_buffers)
    (mkNet [mkProc (Raise ValueError) false;
            mkProc (Return Closed) false;
            start (channel_connect 1 topic shm num_buffers);
            start (api s 2 peer id)]
           [half 1 0 1 (Some server_at); new_conn 0 2 pub_at; new_conn 0 3 (Some server_at)] lock).
Proof.
  intros Hg. set (p2 := start (channel_connect 1 topic shm num_buffers)). set (p3 := start (api s 2 peer id)).
  unfold channel_net. fold p2 p3. clearbody p2 p3.
  unfold channel_create, attach_shm, open_connection, api, api_channel, start.
  connect 0 1. exchange x_str 1 0. command 0 1. exchange x_uuid 0 1.
  assert (E : match get pub_id (sv_clients s) with
    | Some (PublisherInfo _ _ addr peer0) =>
        wr_cmd 0 COMPLETE (wr_str 0 (show_uuid id) (wr_str 0 (str_address (peer0, snd addr))
          (Return (Registered (ChannelInfo id pub_id))) (api_error s 0)) (api_error s 0))
    | _ => Close 0 (Return Closed) end = Close 0 (Return Closed)).
  { destruct (get pub_id (sv_clients s)) as [[i t a q| |]|] eqn:G; try reflexivity. destruct (Hg _ _ _ _ eq_refl). }
  rewrite E.
  eapply goes_trans; [eapply (x_close 1 0); cycle 1; [reflexivity|reflexivity|reflexivity|ends_ok]|tidy].
  change (is_cmd None COMPLETE) with false. cbv iota. apply goes_refl.
Qed.

Lemma channel_goes_refused pub_at :
  get pub_id (sv_clients s) = Some (PublisherInfo pub_entry_id t0 addr pub_peer) -> address_ok (pub_peer, snd addr) ->
  pub_at <> Some (pub_peer, snd addr) ->
  goes (cnet pub_at topic shm num_buffers)
    (mkNet [mkProc (Raise OSError) false;
            mkProc (Return (Registered (ChannelInfo id pub_id))) false;
            start (channel_connect 1 topic shm num_buffers);
            start (api s 2 peer id)]
           [idle 0 1 (Some server_at); new_conn 0 2 pub_at; new_conn 0 3 (Some server_at)] lock).
Proof.
  intros Hg Ha Hat. set (p2 := start (channel_connect 1 topic shm num_buffers)). set (p3 := start (api s 2 peer id)).
  unfold channel_net. fold p2 p3. clearbody p2 p3.
  unfold channel_create, attach_shm, open_connection, api, api_channel, start.
  connect 0 1. exchange x_str 1 0. command 0 1. exchange x_uuid 0 1. rewrite Hg.
  command 1 0. exchange x_str 1 0; [apply show_uuid_sendable|]. tidy. exchange x_address 1 0.
  eapply goes_trans; [eapply (x_refused 0 2); [exact Hat|reflexivity|reflexivity]|tidy]. apply goes_refl.
Qed.
End Situations.

Lemma join_sendable ids : (N.of_nat (length ids) < 2 ^ 50)%N -> sendable (join_comma (map show_uuid ids)).
Proof.
  intros L. split.
  - clear L. induction ids as [|u ids IH]; [intros c []|].
    cbn [map]. destruct (map show_uuid ids) as [|t l] eqn:E.
    + cbn [join_comma]. apply show_uuid_sendable.
    + change (join_comma (show_uuid u :: t :: l)) with (show_uuid u ++ 44%N :: join_comma (t :: l)).
      intros c Hc. apply in_app_or in Hc. destruct Hc as [Hc|[<-|Hc]]; [now apply show_uuid_sendable in Hc|reflexivity|auto].
  - assert (B : length (join_comma (map show_uuid ids)) <= 37 * length ids).
    { clear L. induction ids as [|u ids IH]; [cbn; lia|].
      cbn [map]. destruct (map show_uuid ids) as [|t l] eqn:E.
      - cbn [join_comma]. rewrite show_uuid_length. cbn [length]. lia.
      - change (join_comma (show_uuid u :: t :: l)) with (show_uuid u ++ 44%N :: join_comma (t :: l)).
        rewrite app_length, show_uuid_length. cbn [length]. lia. }
    change (2 ^ 50)%N with 1125899906842624%N in L. change (2 ^ 64)%N with 18446744073709551616%N. lia.
Qed.

Lemma fold_sadd_In (ids : list N) : forall (acc : list N) (u : N), In u (fold_left (fun l v => sadd v l) ids acc) <-> In u acc \/ In u ids.
Proof.
  induction ids as [|v ids IH]; intros acc u; cbn [fold_left]; [cbn; tauto|].
  rewrite IH, In_sadd. cbn. intuition congruence.
Qed.

Lemma fold_sadd_NoDup (ids : list N) : forall acc, NoDup acc -> NoDup (fold_left (fun l v => sadd v l) ids acc).
Proof. induction ids as [|v ids IH]; intros acc H; cbn [fold_left]; [exact H|]. apply IH. now apply NoDup_sadd. Qed.

Lemma subscriber_goes s server_at peer id topic :
  sendable (sv_version s) -> id_ok id -> sendable topic ->
  (forall u, In u (sv_upstream s topic) -> id_ok u) -> (N.of_nat (length (sv_upstream s topic)) < 2 ^ 50)%N ->
  goes (subscriber_net s server_at peer id false topic)
    (mkNet [mkProc (Return (Subscriber id topic (fold_left (fun l u => sadd u l) (sv_upstream s topic) []))) false;
            mkProc (Return (Registered (SubscriberInfo id topic))) false]
           [idle 0 1 (Some server_at)] false).
Proof.
  intros Hv Hid Ht Hu Hl.
  unfold subscriber_net, subscriber_create, open_connection, api, api_subscribe, start.
  connect 0 1. exchange x_str 1 0. command 0 1.
  eapply goes_trans; [eapply (x_lock 1); reflexivity|tidy].
  exchange x_str 0 1. exchange x_uuid 1 0. cbn [sub_graph_connection].
  command 1 0. exchange x_str 1 0; [now apply join_sendable|]. tidy. rewrite parse_update_join by exact Hu.
  command 0 1. command 1 0.
  eapply goes_trans; [eapply (x_unlock 1); reflexivity|tidy]. apply goes_refl.
Qed.

(** ** Nothing more can happen *)

Ltac stuck_tac :=
  let a := fresh "a" in
  intros a; destruct a as [i|c out];
  [do 5 (destruct i as [|i]; [reflexivity|]); destruct i; reflexivity
  |do 4 (destruct c as [|c]; [destruct out; reflexivity|]); destruct c; reflexivity].

(** ** The client is killed *)

(** A handler that only uses connection [c], gives the lock back, and does not wait for ever; [b]: it holds the lock. *)
Fixpoint tidy_up (c : nat) (b : bool) (p : prog) : Prop :=
  match p with
  | Return _ | Raise _ => b = false
  | Forever | Dial _ _ _ _ | Accept _ _ => False
  | Write d _ k | Close d k => d = c /\ tidy_up c b k
  | Read1 d k => d = c /\ forall r, tidy_up c b (k r)
  | ReadN d _ k h => d = c /\ (forall r, tidy_up c b (k r)) /\ tidy_up c b h
  | Lock k => b = false /\ tidy_up c true k
  | Unlock k => b = true /\ tidy_up c false k
  end.

Lemma tidy_wr_str c b s k h : tidy_up c b k -> (forall e, tidy_up c b (h e)) -> tidy_up c b (wr_str c s k h).
Proof. unfold wr_str. destruct (encode_str s); cbn; auto. Qed.
Lemma tidy_wr_cmd c b m k : tidy_up c b k -> tidy_up c b (wr_cmd c m k).
Proof. unfold wr_cmd. cbn. auto. Qed.
Lemma tidy_rd_int c b k h : (forall n, tidy_up c b (k n)) -> (forall e, tidy_up c b (h e)) -> tidy_up c b (rd_int c k h).
Proof. unfold rd_int. cbn. auto. Qed.
Lemma tidy_rd_str c b k h : (forall s, tidy_up c b (k s)) -> (forall e, tidy_up c b (h e)) -> tidy_up c b (rd_str c k h).
Proof.
  intros Hk Hh. unfold rd_str. apply tidy_rd_int; auto. intros n. cbn [tidy_up]. split; [reflexivity|]. split; [|auto].
  intros r. destruct (utf8_decode r); auto.
Qed.
Lemma tidy_rd_uuid c b k h : (forall s, tidy_up c b (k s)) -> (forall e, tidy_up c b (h e)) -> tidy_up c b (rd_uuid c k h).
Proof. intros Hk Hh. unfold rd_uuid. apply tidy_rd_str; auto. intros s. destruct (parse_uuid s); auto. Qed.
Lemma tidy_rd_address c b k h : (forall s, tidy_up c b (k s)) -> (forall e, tidy_up c b (h e)) -> tidy_up c b (rd_address c k h).
Proof. intros Hk Hh. unfold rd_address. apply tidy_rd_str; auto. intros s. destruct (from_string s); auto. Qed.
Lemma tidy_api_error s c e : tidy_up c false (api_error s c e).
Proof. unfold api_error. destruct (sv_error_closes s); cbn; auto. Qed.
Lemma tidy_api_shm s c o : tidy_up c false (api_shm s c o).
Proof.
  destruct o as [name|]; cbn [api_shm]; [|cbn; auto]. apply tidy_wr_cmd, tidy_wr_str; [reflexivity|]. apply tidy_api_error.
Qed.

Lemma tidy_api_channel s c id : tidy_up c false (api_channel s c id).
Proof.
  unfold api_channel. apply tidy_rd_uuid; [|apply tidy_api_error]. intros u.
  destruct (get u (sv_clients s)) as [[]|]; try (cbn; auto; fail).
  apply tidy_wr_cmd, tidy_wr_str; [|apply tidy_api_error]. apply tidy_wr_str; [reflexivity|apply tidy_api_error].
Qed.

Lemma tidy_api_publish s c peer id : tidy_up c false (api_publish s c peer id).
Proof.
  unfold api_publish. cbn [tidy_up]. split; [reflexivity|].
  assert (E : forall e, tidy_up c true (Unlock (api_error s c e))) by (intros e; cbn; split; [reflexivity|apply tidy_api_error]).
  apply tidy_rd_str; [intros t|exact E]. apply tidy_wr_str; [|exact E]. apply tidy_rd_address; [intros a|exact E].
  apply tidy_wr_cmd. cbn. auto.
Qed.

Lemma tidy_api_subscribe s c id : tidy_up c false (api_subscribe s c id).
Proof.
  unfold api_subscribe. cbn [tidy_up]. split; [reflexivity|].
  assert (E : forall e, tidy_up c true (Unlock (api_error s c e))) by (intros e; cbn; split; [reflexivity|apply tidy_api_error]).
  apply tidy_rd_str; [intros t|exact E]. apply tidy_wr_str; [|exact E]. apply tidy_wr_cmd, tidy_wr_str; [|exact E].
  cbn [tidy_up]. split; [reflexivity|]. intros r. destruct (is_cmd r COMPLETE); [apply tidy_wr_cmd; cbn; auto|].
  destruct r; [cbn; auto|]. apply tidy_wr_cmd. cbn. auto.
Qed.

(** The part of a handler after Accept. *)
Definition body (p : prog) : prog := match p with Accept _ k => k | _ => p end.

Lemma tidy_api s c peer id : tidy_up c false (body (api s c peer id)).
Proof.
  unfold api. cbn [body]. apply tidy_wr_str; [|apply tidy_api_error]. cbn [tidy_up]. split; [reflexivity|].
  intros [r|]; [|cbn; auto].
  destruct (is_cmd _ SHUTDOWN); [cbn; auto|].
  destruct (is_cmd _ SHM_CREATE).
  { apply tidy_rd_int; [intros n|apply tidy_api_error]. apply tidy_rd_int; [intros n2|apply tidy_api_error].
    destruct (sv_new_shm s n n2); [apply tidy_api_shm|apply tidy_api_error]. }
  destruct (is_cmd _ SHM_ATTACH).
  { apply tidy_rd_str; [intros n|apply tidy_api_error]. apply tidy_api_shm. }
  destruct (is_cmd _ CHANNEL); [apply tidy_api_channel|].
  destruct (is_cmd _ SUBSCRIBE); [apply tidy_api_subscribe|].
  destruct (is_cmd _ PUBLISH); [apply tidy_api_publish|]. reflexivity.
Qed.

Lemma tidy_channel_connect c topic shm n : tidy_up c false (body (channel_connect c topic shm n)).
Proof.
  unfold channel_connect. cbn [body tidy_up]. split; [reflexivity|]. intros [r|]; [|cbn; auto].
  destruct (is_cmd _ CHANNEL); [|reflexivity]. apply tidy_rd_uuid; [intros u|reflexivity].
  apply tidy_wr_str; [|reflexivity]. apply tidy_wr_str; [|reflexivity]. cbn [tidy_up]. split; [reflexivity|]. intros q.
  apply tidy_rd_int; [intros m|reflexivity]. destruct (uint64_to_bytes n); [cbn; auto|reflexivity].
Qed.

(** Handler [S i] is at the other end of connection [i] of coroutine 0. *)
Definition served (n : net) : Prop :=
  forall i p, nth_error (n_procs n) (S i) = Some p ->
    exists x, nth_error (n_conns n) i = Some x /\ c_from x = 0 /\ c_to x = S i /\
      ((exists k, p_prog p = Accept i k /\ tidy_up i false k /\ p_locked p = false) \/
       (c_made x = true /\ tidy_up i (p_locked p) (p_prog p))).

Lemma act_keeps i p x p' x' : act i p x = Some (p', x') ->
  c_from x' = c_from x /\ c_to x' = c_to x /\ (c_made x = true -> c_made x' = true).
Proof.
  destruct p as [o|e| |c a k h|c k|c b k|c k|c n k h|c k|k|k]; cbn [act]; try discriminate.
  - destruct (_ && _); [|discriminate]. destruct (c_at x); [|intros [= <- <-]; auto].
    destruct (address_dec _ _); intros [= <- <-]; auto.
  - destruct (_ && _); [|discriminate]. intros [= <- <-]. auto.
  - destruct (writes _ _ _) as [y|] eqn:W; [|discriminate]. intros [= <- <-]. apply writes_keeps in W. intuition congruence.
  - destruct (reads _ _ _) as [[r y]|] eqn:R; [|discriminate]. intros [= <- <-]. apply reads_keeps in R. intuition congruence.
  - destruct (reads _ _ _) as [[r y]|] eqn:R; [|discriminate]. intros [= <- <-]. apply reads_keeps in R. intuition congruence.
  - destruct (writes _ _ _) as [y|] eqn:W; [|discriminate]. intros [= <- <-]. apply writes_keeps in W. intuition congruence.
Qed.

Lemma act_tidy i c b p x p' x' : tidy_up c b p -> act i p x = Some (p', x') -> tidy_up c b p'.
Proof.
  destruct p as [o|e| |d a k h|d k|d y k|d k|d n k h|d k|k|k]; cbn [act tidy_up]; try discriminate; try tauto.
  - intros (_ & H). destruct (writes _ _ _); [|discriminate]. intros [= <- <-]. exact H.
  - intros (_ & H). destruct (reads _ _ _) as [[r y]|]; [|discriminate]. intros [= <- <-]. apply H.
  - intros (_ & H1 & H2). destruct (reads _ _ _) as [[[r|] y]|]; [| |discriminate]; intros [= <- <-]; auto.
  - intros (_ & H). destruct (writes _ _ _); [|discriminate]. intros [= <- <-]. exact H.
Qed.

Lemma tidy_uses c b p d : tidy_up c b p -> uses p = Some d -> d = c.
Proof. destruct p; cbn; try discriminate; try tauto; intros H [= <-]; apply H. Qed.

Lemma served_step a n m : served n -> step a n = Some m -> served m.
Proof.
  intros Hn H. destruct a as [j|c out].
  - apply run_inv in H. destruct H as (q & Hq & [(q' & L & ->)|(c & y & pr' & y' & U & C & A & ->)]).
    + intros i p Hp. cbn [n_procs n_conns n_lock] in *. destruct (Nat.eq_dec j (S i)) as [->|Nj].
      * rewrite (nth_set_same _ _ _ _ Hq) in Hp. injection Hp as <-.
        destruct (Hn i q Hq) as (x & X1 & X2 & X3 & X4). exists x. split; [auto|]. split; [auto|]. split; [auto|]. right.
        unfold lock_act in L. destruct X4 as [(k & E & _)|(M & T)]; [rewrite E in L; discriminate|]. split; [exact M|].
        destruct (p_prog q); try discriminate; cbn in T.
        -- destruct (n_lock n); [discriminate|]. injection L as <-. apply T.
        -- injection L as <-. apply T.
      * rewrite nth_set_other in Hp by auto. apply Hn in Hp. exact Hp.
    + assert (K := act_keeps _ _ _ _ _ A). destruct K as (K1 & K2 & K3).
      assert (CN : forall i x, nth_error (n_conns n) i = Some x -> exists x', nth_error (set_nth c y' (n_conns n)) i = Some x' /\
        c_from x' = c_from x /\ c_to x' = c_to x /\ (c_made x = true -> c_made x' = true)).
      { intros i x Hx. destruct (Nat.eq_dec c i) as [<-|Nc].
        - rewrite C in Hx. injection Hx as <-. exists y'. rewrite (nth_set_same _ _ _ _ C). auto.
        - exists x. rewrite nth_set_other by auto. auto. }
      intros i p Hp. cbn [n_procs n_conns n_lock] in *. destruct (Nat.eq_dec j (S i)) as [->|Nj].
      * rewrite (nth_set_same _ _ _ _ Hq) in Hp. injection Hp as <-.
        destruct (Hn i q Hq) as (x & X1 & X2 & X3 & X4). destruct (CN _ _ X1) as (x' & Y1 & Y2 & Y3 & Y4).
        exists x'. split; [auto|]. split; [congruence|]. split; [congruence|]. right. cbn [p_prog p_locked].
        destruct X4 as [(k & E & T & Lk)|(M & T)].
        -- rewrite E in A, U. cbn in U. injection U as <-. rewrite C in X1. injection X1 as <-.
           cbn [act] in A. destruct (c_made y) eqn:M; [|rewrite andb_false_r in A; discriminate].
           destruct (_ && _); [|discriminate]. injection A as <- <-. rewrite Lk. auto.
        -- split; [auto|]. eapply act_tidy; eauto.
      * rewrite nth_set_other in Hp by auto. destruct (Hn i p Hp) as (x & X1 & X2 & X3 & X4).
        destruct (CN _ _ X1) as (x' & Y1 & Y2 & Y3 & Y4). exists x'. split; [auto|]. split; [congruence|]. split; [congruence|].
        destruct X4 as [E|(M & T)]; auto.
  - rewrite step_deliver in H. destruct (nth_error (n_conns n) c) as [y|] eqn:C; [|discriminate].
    destruct (deliver_on out y) as [y'|] eqn:D; [|discriminate]. injection H as <-.
    assert (K : c_from y' = c_from y /\ c_to y' = c_to y /\ c_made y' = c_made y).
    { unfold deliver_on in D. destruct out, (deliver _); try discriminate; injection D as <-; auto. }
    intros i p Hp. cbn [n_procs n_conns n_lock] in *. destruct (Hn i p Hp) as (x & X1 & X2 & X3 & X4).
    destruct (Nat.eq_dec c i) as [<-|Nc].
    + rewrite C in X1. injection X1 as <-. exists y'. rewrite (nth_set_same _ _ _ _ C). destruct K as (-> & -> & ->). auto.
    + exists x. rewrite nth_set_other by auto. auto.
Qed.

Lemma served_run sched : forall n m, served n -> run sched n = Some m -> served m.
Proof.
  induction sched as [|a sched IH]; cbn; intros n m Hn H; [now injection H as <-|].
  destruct (step a n) as [n1|] eqn:E; [|discriminate]. eapply IH; [eapply served_step; eauto|exact H].
Qed.

Lemma step_lock_same a n m : step a n = Some m -> n_lock m = n_lock n.
Proof.
  intros H. destruct a as [j|c out].
  - apply run_inv in H. destruct H as (q & Hq & [(q' & L & ->)|(c & y & pr' & y' & U & C & A & ->)]); reflexivity.
  - rewrite step_deliver in H. destruct (nth_error _ _) as [y|]; [|discriminate].
    destruct (deliver_on out y) as [y'|]; [|discriminate]. injection H as <-. reflexivity.
Qed.

Lemma run_lock_same sched : forall n m, run sched n = Some m -> n_lock m = n_lock n.
Proof.
  induction sched as [|a sched IH]; cbn; intros n m H; [now injection H as <-|].
  destruct (step a n) as [n1|] eqn:E; [|discriminate]. rewrite (IH _ _ H). eapply step_lock_same; eauto.
Qed.

(** Coroutine 0 is dead. *)
Definition orphaned (n : net) : Prop :=
  served n /\ n_lock n = false /\
  (forall p, nth_error (n_procs n) 0 = Some p -> p_prog p = Return Dead /\ p_locked p = false) /\
  (forall x, In x (n_conns n) -> c_from x = 0 /\ (c_made x = true -> w_closed (c_out x) = true)).

Lemma In_set_nth {A} (x y : A) l : forall i, In x (set_nth i y l) -> x = y \/ In x l.
Proof.
  induction l as [|z l IH]; intros [|i] H; cbn in *; auto; [destruct H as [->|H]; auto|].
  destruct H as [->|H]; auto. destruct (IH _ H); auto.
Qed.

Lemma reads_closed {A} i x (f : way -> option (A * way)) r x' : (forall w a w', f w = Some (a, w') -> w_closed w' = w_closed w) ->
  reads i x f = Some (r, x') -> w_closed (c_out x') = w_closed (c_out x).
Proof.
  intros Hf. unfold reads. destruct (c_made x); [|discriminate].
  destruct (_ =? _); [destruct (f _) as [[? ?]|] eqn:F; [intros [= <- <-]; reflexivity|discriminate]|].
  destruct (_ =? _); [destruct (f _) as [[? ?]|] eqn:F; [intros [= <- <-]; cbn; eauto|discriminate]|discriminate].
Qed.

Lemma take1_closed w r w' : take1 w = Some (r, w') -> w_closed w' = w_closed w.
Proof.
  unfold take1. destruct (w_buf w); [destruct (w_eof w); [|discriminate]|]; intros [= <- <-]; reflexivity.
Qed.
Lemma take_closed n w r w' : take n w = Some (r, w') -> w_closed w' = w_closed w.
Proof.
  unfold take. destruct (_ <=? _); [|destruct (w_eof w); [|discriminate]]; intros [= <- <-]; reflexivity.
Qed.

Lemma writes_closed i x f x' : i <> c_from x -> writes i x f = Some x' -> w_closed (c_out x') = w_closed (c_out x).
Proof.
  intros N. unfold writes. destruct (c_made x); [|discriminate]. destruct (Nat.eqb_spec i (c_from x)); [congruence|].
  destruct (_ =? _); [intros [= <-]; reflexivity|discriminate].
Qed.

Lemma act_closed i p x p' x' : i <> c_from x -> act i p x = Some (p', x') ->
  w_closed (c_out x') = w_closed (c_out x) /\ c_from x' = c_from x /\ c_made x' = c_made x.
Proof.
  intros N.
  destruct p as [o|e| |c a k h|c k|c b k|c k|c n k h|c k|k|k]; cbn [act]; try discriminate.
  - destruct (Nat.eqb_spec i (c_from x)); [congruence|]. discriminate.
  - destruct (_ && _); [|discriminate]. intros [= <- <-]. auto.
  - destruct (writes _ _ _) as [y|] eqn:W; [|discriminate]. intros [= <- <-].
    split; [eapply writes_closed; eauto|]. assert (M : c_made x = true) by (unfold writes in W; destruct (c_made x); [auto|discriminate]).
    apply writes_keeps in W. intuition congruence.
  - destruct (reads _ _ _) as [[r y]|] eqn:W; [|discriminate]. intros [= <- <-].
    split; [eapply reads_closed; [|eauto]; apply take1_closed|].
    assert (M : c_made x = true) by (unfold reads in W; destruct (c_made x); [auto|discriminate]).
    apply reads_keeps in W. intuition congruence.
  - destruct (reads _ _ _) as [[r y]|] eqn:W; [|discriminate]. intros [= <- <-].
    split; [eapply reads_closed; [|eauto]; apply take_closed|].
    assert (M : c_made x = true) by (unfold reads in W; destruct (c_made x); [auto|discriminate]).
    apply reads_keeps in W. intuition congruence.
  - destruct (writes _ _ _) as [y|] eqn:W; [|discriminate]. intros [= <- <-].
    split; [eapply writes_closed; eauto|]. assert (M : c_made x = true) by (unfold writes in W; destruct (c_made x); [auto|discriminate]).
    apply writes_keeps in W. intuition congruence.
Qed.

Lemma deliver_closed w w' : deliver w = Some w' -> w_closed w' = w_closed w.
Proof.
  unfold deliver. destruct (w_eof w); [discriminate|]. destruct (w_wire w); [|intros [= <-]; reflexivity].
  destruct (w_closed w); [|discriminate]. intros [= <-]. reflexivity.
Qed.

Lemma orphaned_step a n m : orphaned n -> step a n = Some m -> orphaned m.
Proof.
  intros (H1 & H2 & H3 & H4) H. split; [eapply served_step; eauto|].
  split; [rewrite (step_lock_same _ _ _ H); exact H2|].
  destruct a as [j|c out].
  - apply run_inv in H. destruct H as (q & Hq & H).
    assert (Nj : j <> 0).
    { intros ->. destruct (H3 _ Hq) as (E & _). destruct H as [(q' & L & _)|(c & y & pr' & y' & U & _)].
      - unfold lock_act in L. rewrite E in L. discriminate.
      - rewrite E in U. discriminate. }
    destruct H as [(q' & L & ->)|(c & y & pr' & y' & U & C & A & ->)]; cbn [n_procs n_conns n_lock].
    + split; [|exact H4]. intros p Hp. rewrite nth_set_other in Hp by auto. auto.
    + split; [intros p Hp; rewrite nth_set_other in Hp by auto; auto|].
      intros x Hx. apply In_set_nth in Hx. destruct Hx as [->|Hx]; [|auto].
      destruct (H4 y (nth_error_In _ _ C)) as (F & M).
      destruct (act_closed _ _ _ _ _ ltac:(rewrite F; exact Nj) A) as (E1 & E2 & E3).
      split; [congruence|]. rewrite E1, E3. exact M.
  - rewrite step_deliver in H. destruct (nth_error (n_conns n) c) as [y|] eqn:C; [|discriminate].
    destruct (deliver_on out y) as [y'|] eqn:D; [|discriminate]. injection H as <-. cbn. split; [exact H3|].
    intros x Hx. apply In_set_nth in Hx. destruct Hx as [->|Hx]; [|auto].
    destruct (H4 y (nth_error_In _ _ C)) as (F & M).
    unfold deliver_on in D. destruct out; destruct (deliver _) as [w|] eqn:Dw in D; try discriminate; injection D as <-; cbn; split; auto.
    rewrite (deliver_closed _ _ Dw). exact M.
Qed.

Lemma orphaned_end n : orphaned n -> stuck n ->
  no_lock n /\ forall i p, nth_error (n_procs n) (S i) = Some p -> over (p_prog p) \/ not_begun (p_prog p).
Proof.
  intros (H1 & H2 & H3 & H4) St.
  assert (K : forall i p, nth_error (n_procs n) (S i) = Some p ->
    (over (p_prog p) \/ not_begun (p_prog p)) /\ p_locked p = false).
  { intros i p Hp. destruct (H1 i p Hp) as (x & X1 & X2 & X3 & [(k & E & _ & L)|(M & T)]); [rewrite E; cbn; auto|].
    assert (Cl := proj2 (H4 x (nth_error_In _ _ X1)) M).
    assert (SA := St (Run (S i))). assert (SD := St (Deliver i true)).
    rewrite step_deliver, X1 in SD. unfold deliver_on in SD.
    assert (NX : (S i =? c_from x) = false) by (rewrite X2; reflexivity).
    assert (NT : (S i =? c_to x) = true) by (rewrite X3; apply Nat.eqb_refl).
    destruct (p_prog p) as [o|e| |d a k h|d k|d y k|d k|d m k h|d k|k|k] eqn:E; cbn [tidy_up over not_begun] in *; try tauto.
    - exfalso. destruct T as (-> & T).
      rewrite (step_act _ _ p i x k (mkConn (c_from x) (c_to x) (c_at x) true (c_out x) (send (c_back x) y)) Hp) in SA;
        rewrite ?E; cbn; auto; [discriminate|]. unfold writes. rewrite M, NX, NT. reflexivity.
    - exfalso. destruct T as (-> & T).
      destruct (take1 (c_out x)) as [[r w]|] eqn:Tk.
      + rewrite (step_act _ _ p i x (k r) (mkConn (c_from x) (c_to x) (c_at x) true w (c_back x)) Hp) in SA;
          rewrite ?E; cbn; auto; [discriminate|]. unfold reads. rewrite M, NX, NT, Tk. reflexivity.
      + unfold take1 in Tk. unfold deliver in SD. destruct (w_buf (c_out x)); [|discriminate].
        destruct (w_eof (c_out x)); [discriminate|]. rewrite Cl in SD. destruct (w_wire (c_out x)); discriminate.
    - exfalso. destruct T as (-> & T).
      destruct (take m (c_out x)) as [[r w]|] eqn:Tk.
      + rewrite (step_act _ _ p i x (match r with Some b => k b | None => h end) (mkConn (c_from x) (c_to x) (c_at x) true w (c_back x)) Hp) in SA;
          rewrite ?E; cbn; auto; [discriminate|]. unfold reads. rewrite M, NX, NT, Tk. reflexivity.
      + unfold take in Tk. unfold deliver in SD. destruct (_ <=? _); [discriminate|].
        destruct (w_eof (c_out x)); [discriminate|]. rewrite Cl in SD. destruct (w_wire (c_out x)); discriminate.
    - exfalso. destruct T as (-> & T).
      rewrite (step_act _ _ p i x k (mkConn (c_from x) (c_to x) (c_at x) true (c_out x) (shut (c_back x))) Hp) in SA;
        rewrite ?E; cbn; auto; [discriminate|]. unfold writes. rewrite M, NX, NT. reflexivity.
    - exfalso. rewrite (step_lock _ _ p (mkProc k true) Hp) in SA; [discriminate|]. unfold lock_act. rewrite E, H2. reflexivity.
    - exfalso. rewrite (step_lock _ _ p (mkProc k false) Hp) in SA; [discriminate|]. unfold lock_act. rewrite E. reflexivity. }
  split.
  - intros p Hp. apply In_nth_error in Hp. destruct Hp as ([|i] & Hi); [apply (H3 _ Hi)|]. apply (K _ _ Hi).
  - intros i p Hp. apply (K _ _ Hp).
Qed.

Lemma killed_orphaned n : served n -> n_lock n = false -> (forall x, In x (n_conns n) -> c_from x = 0 /\ c_to x <> 0) ->
  orphaned (kill 0 n).
Proof.
  intros Hs Hl Hc. split; [|split; [|split]].
  - intros i p Hp. cbn [kill n_procs] in Hp. rewrite nth_set_other in Hp by discriminate.
    destruct (Hs i p Hp) as (x & X1 & X2 & X3 & X4). cbn. eexists. split; [rewrite nth_error_map, X1; reflexivity|]. cbn.
    split; [exact X2|]. split; [exact X3|]. exact X4.
  - exact Hl.
  - intros p Hp. cbn in Hp. destruct (n_procs n); [discriminate|]. injection Hp as <-. auto.
  - intros x Hx. cbn in Hx. apply in_map_iff in Hx. destruct Hx as (y & <- & Hy). destruct (Hc y Hy) as (F & _). cbn.
    split; [exact F|]. rewrite F. reflexivity.
Qed.

Lemma step_ends_same a n m : step a n = Some m ->
  (forall x, In x (n_conns n) -> c_from x = 0 /\ c_to x <> 0) -> forall x, In x (n_conns m) -> c_from x = 0 /\ c_to x <> 0.
Proof.
  intros H Hc. destruct a as [j|c out].
  - apply run_inv in H. destruct H as (q & Hq & [(q' & L & ->)|(c & y & pr' & y' & U & C & A & ->)]); cbn; [exact Hc|].
    intros x Hx. apply In_set_nth in Hx. destruct Hx as [->|Hx]; [|auto].
    destruct (act_keeps _ _ _ _ _ A) as (-> & -> & _). apply Hc. eapply nth_error_In; eauto.
  - rewrite step_deliver in H. destruct (nth_error _ _) as [y|] eqn:C; [|discriminate].
    destruct (deliver_on out y) as [y'|] eqn:D; [|discriminate]. injection H as <-. cbn.
    intros x Hx. apply In_set_nth in Hx. destruct Hx as [->|Hx]; [|auto].
    assert (K := Hc y (nth_error_In _ _ C)). unfold deliver_on in D. destruct out, (deliver _); try discriminate; injection D as <-; exact K.
Qed.

Lemma run_ends_same sched : forall n m, run sched n = Some m ->
  (forall x, In x (n_conns n) -> c_from x = 0 /\ c_to x <> 0) -> forall x, In x (n_conns m) -> c_from x = 0 /\ c_to x <> 0.
Proof.
  induction sched as [|a sched IH]; cbn; intros n m H Hc; [injection H as <-; exact Hc|].
  destruct (step a n) as [n1|] eqn:E; [|discriminate]. eapply IH; [exact H|]. eapply step_ends_same; eauto.
Qed.

Lemma killed_comes n sched m : served n -> n_lock n = false -> (forall x, In x (n_conns n) -> c_from x = 0 /\ c_to x <> 0) ->
  run sched n = Some m -> comes_to handlers_done (kill 0 m).
Proof.
  intros Hs Hl Hc R.
  apply (comes_invariant orphaned).
  - intros a x y. apply orphaned_step.
  - intros x Hx St. destruct (orphaned_end x Hx St) as (K1 & K2). split; [exact K1|].
    intros i p Hp. unfold outcome_of, outcomes in Hp. rewrite nth_error_map in Hp.
    destruct (nth_error (n_procs x) (S i)) as [q|] eqn:E; [|discriminate]. injection Hp as <-. apply (K2 _ _ E).
  - apply killed_orphaned.
    + eapply served_run; eauto.
    + rewrite (run_lock_same _ _ _ R). exact Hl.
    + eapply run_ends_same; eauto.
Qed.
