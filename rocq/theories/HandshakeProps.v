(** C85.  Setting up a publisher, a channel, a subscriber or a segment: both ends agree on every field, and
    neither waits for ever, however slowly and in whatever pieces the bytes arrive. *)

From Coq Require Import List NArith ZArith Arith Bool Lia.
From Coq Require Import Strings.Byte.
From Verif Require Import CodecModel CodecProofs StreamModel AddressModel AddressProps Dict HandshakeModel HandshakeSpec
  HandshakeNetProofs HandshakeProofs HandshakeEndProofs.
Import ListNotations.

Ltac left_tac :=
  let x := fresh in let H := fresh in
  intros x H; cbn in H; repeat (destruct H as [<-|H]; [cbn; auto|]); destruct H.
Ltac lock_tac :=
  let x := fresh in let H := fresh in
  intros x H; cbn in H; repeat (destruct H as [<-|H]; [reflexivity|]); destruct H.
Ltac open_tac := eexists; split; [reflexivity|]; repeat split.

(** C85.  Publisher.create returns, and the publisher and the server agree on its identifier, topic, address and
    segment. *)
Theorem C85_publisher :
  forall s server_at peer id attach topic num_buffers buf_size bound name,
    sendable (sv_version s) -> id_ok id -> sendable topic -> fits64 num_buffers -> fits64 buf_size -> address_ok bound ->
    sv_new_shm s num_buffers buf_size = Some name -> sendable name -> attach name = true ->
    comes_to (fun n =>
        outcomes n = [Return (Publisher id topic name num_buffers);
                      Return (Registered (PublisherInfo id topic bound peer));
                      Return (Leased name)] /\
        nothing_left n /\ no_lock n /\ open 0 n /\ open 1 n)
      (publisher_net s server_at peer id false attach topic num_buffers buf_size (Some bound)).
Proof.
  intros. eapply goes_comes; [eapply publisher_goes; eassumption|stuck_tac|].
  split; [reflexivity|]. split; [left_tac|]. split; [lock_tac|]. split; open_tac.
Qed.
Print Assumptions C85_publisher.

(** C85.  Channel.create returns, whether the command lock is free or not: the channel has the publisher's topic and
    number of buffers, the identifier the server gave it, and the publisher's segment if this host can
    open it; the publisher knows the channel's identifier, its process, and whether it has the
    segment; the server has registered the channel. *)
Theorem C85_channel :
  forall s server_at peer id lock attach pid pub_id pub_topic addr pub_peer topic shm num_buffers,
    sendable (sv_version s) -> id_ok id -> sendable topic -> sendable shm ->
    fits64 num_buffers -> (0 < num_buffers)%N -> fits64 pid -> id_ok pub_id ->
    get pub_id (sv_clients s) = Some (PublisherInfo pub_id pub_topic addr pub_peer) -> address_ok (pub_peer, snd addr) ->
    In shm (sv_shms s) -> attach shm = true ->
    comes_to (fun n =>
        outcomes n = [Return (Channel id pub_id topic (Some shm) num_buffers);
                      Return (Registered (ChannelInfo id pub_id));
                      Return (Connected id pid true);
                      Return (Leased shm)] /\
        nothing_left n /\ open 0 n /\ open 1 n /\ open 2 n)
      (channel_net s server_at peer id lock attach pid pub_id (Some (pub_peer, snd addr)) topic shm num_buffers).
Proof.
  intros s server_at peer id lock attach pid pub_id pub_topic addr pub_peer topic shm num_buffers
    H1 H2 H3 H4 H5 H6 H7 H8 H9 H10 H11 H12.
  eapply goes_comes; [eapply channel_goes_shm; try eassumption; now apply mem_In|stuck_tac|].
  split; [reflexivity|]. split; [left_tac|]. split; [open_tac|]. split; open_tac.
Qed.
Print Assumptions C85_channel.

(** C85.  If the segment is not known to the server, the channel is set up without it, both ends know it,
    and the connection made for the segment is closed at both ends. *)
Theorem C85_channel_without_segment :
  forall s server_at peer id lock attach pid pub_id pub_topic addr pub_peer topic shm num_buffers,
    sendable (sv_version s) -> id_ok id -> sendable topic -> sendable shm ->
    fits64 num_buffers -> (0 < num_buffers)%N -> fits64 pid -> id_ok pub_id ->
    get pub_id (sv_clients s) = Some (PublisherInfo pub_id pub_topic addr pub_peer) -> address_ok (pub_peer, snd addr) ->
    ~ In shm (sv_shms s) ->
    comes_to (fun n =>
        outcomes n = [Return (Channel id pub_id topic None num_buffers);
                      Return (Registered (ChannelInfo id pub_id));
                      Return (Connected id pid false);
                      Return Closed] /\
        nothing_left n /\ open 0 n /\ open 1 n /\
        exists x, nth_error (n_conns n) 2 = Some x /\ w_closed (c_out x) = true /\ w_closed (c_back x) = true)
      (channel_net s server_at peer id lock attach pid pub_id (Some (pub_peer, snd addr)) topic shm num_buffers).
Proof.
  intros s server_at peer id lock attach pid pub_id pub_topic addr pub_peer topic shm num_buffers
    H1 H2 H3 H4 H5 H6 H7 H8 H9 H10 H11.
  eapply goes_comes; [eapply channel_goes_no_shm; try eassumption; now apply mem_false|stuck_tac|].
  split; [reflexivity|]. split; [left_tac|]. split; [open_tac|]. split; [open_tac|].
  eexists. split; [reflexivity|]. auto.
Qed.
Print Assumptions C85_channel_without_segment.

(** C85.  If the server knows no such publisher, Channel.create raises, and nothing is registered. *)
Theorem C85_unknown_publisher :
  forall s server_at peer id lock attach pid pub_id pub_at topic shm num_buffers,
    sendable (sv_version s) -> id_ok pub_id ->
    (forall i t a p, get pub_id (sv_clients s) <> Some (PublisherInfo i t a p)) ->
    comes_to (fun n =>
        outcome_of 0 n = Some (Raise ValueError) /\ outcome_of 1 n = Some (Return Closed) /\ nothing_left n)
      (channel_net s server_at peer id lock attach pid pub_id pub_at topic shm num_buffers).
Proof.
  intros s server_at peer id lock attach pid pub_id pub_at topic shm num_buffers H1 H2 H3.
  eapply goes_comes; [eapply channel_goes_unknown; eassumption| |].
  - intros [i|c out]; [do 4 (destruct i as [|i]; [reflexivity|]); destruct i; reflexivity|].
    do 3 (destruct c as [|c]; [destruct out; reflexivity|]); destruct c; reflexivity.
  - split; [reflexivity|]. split; [reflexivity|]. left_tac.
Qed.
Print Assumptions C85_unknown_publisher.

(** C85.  Subscriber.create returns with exactly the publishers upstream of its topic, and the server knows the
    subscriber by the same identifier and topic. *)
Theorem C85_subscriber :
  forall s server_at peer id topic,
    sendable (sv_version s) -> id_ok id -> sendable topic ->
    (forall u, In u (sv_upstream s topic) -> id_ok u) -> (N.of_nat (length (sv_upstream s topic)) < 2 ^ 50)%N ->
    comes_to (fun n => exists pubs,
        outcomes n = [Return (Subscriber id topic pubs); Return (Registered (SubscriberInfo id topic))] /\
        (forall u, In u pubs <-> In u (sv_upstream s topic)) /\ NoDup pubs /\
        nothing_left n /\ no_lock n /\ open 0 n)
      (subscriber_net s server_at peer id false topic).
Proof.
  intros s server_at peer id topic H1 H2 H3 H4 H5.
  eapply goes_comes; [eapply subscriber_goes; eassumption|stuck_tac|].
  eexists. split; [reflexivity|]. split; [|split; [|split; [left_tac|split; [lock_tac|open_tac]]]].
  - intros u. rewrite fold_sadd_In. cbn. tauto.
  - apply fold_sadd_NoDup. constructor.
Qed.
Print Assumptions C85_subscriber.

(** C85.  If the process that creates a publisher, a channel or a subscriber is killed, at any moment, then every handler
    at the other ends of its connections ends, and the command lock is given back. *)
Theorem C85_client_killed :
  forall s server_at peer id attach n0,
    (exists topic num_buffers buf_size bound,
       n0 = publisher_net s server_at peer id false attach topic num_buffers buf_size bound) \/
    (exists pid pub_id pub_at topic shm num_buffers,
       n0 = channel_net s server_at peer id false attach pid pub_id pub_at topic shm num_buffers) \/
    (exists topic, n0 = subscriber_net s server_at peer id false topic) ->
    forall sched n, run sched n0 = Some n -> comes_to handlers_done (kill 0 n).
Proof.
  intros s server_at peer id attach n0 H sched n R.
  assert (SA : forall c, exists k, api s c peer id = Accept c k /\ tidy_up c false k).
  { intros c. assert (T := tidy_api s c peer id). eexists. split; [reflexivity|]. exact T. }
  assert (SC : forall c t sh nb, exists k, channel_connect c t sh nb = Accept c k /\ tidy_up c false k).
  { intros c t sh nb. assert (T := tidy_channel_connect c t sh nb). eexists. split; [reflexivity|]. exact T. }
  destruct H as [(topic & nb & bs & bound & ->)|[(pid & pub_id & pub_at & topic & shm & nb & ->)|(topic & ->)]].
  - eapply killed_comes; [| | |exact R].
    + intros [|[|i]] p Hp; cbn in Hp; try (destruct i; discriminate); injection Hp as <-.
      * exists (new_conn 0 1 (Some server_at)). repeat split. left. destruct (SA 0) as (k & E & T). exists k. cbn. auto.
      * exists (new_conn 0 2 (Some server_at)). repeat split. left. destruct (SA 1) as (k & E & T). exists k. cbn. auto.
    + reflexivity.
    + intros x Hx. cbn in Hx. repeat (destruct Hx as [<-|Hx]; [split; [reflexivity|discriminate]|]). destruct Hx.
  - eapply killed_comes; [| | |exact R].
    + intros [|[|[|i]]] p Hp; cbn in Hp; try (destruct i; discriminate); injection Hp as <-.
      * exists (new_conn 0 1 (Some server_at)). repeat split. left. destruct (SA 0) as (k & E & T). exists k. cbn. auto.
      * exists (new_conn 0 2 pub_at). repeat split. left. destruct (SC 1 topic shm nb) as (k & E & T). exists k. cbn. auto.
      * exists (new_conn 0 3 (Some server_at)). repeat split. left. destruct (SA 2) as (k & E & T). exists k. cbn. auto.
    + reflexivity.
    + intros x Hx. cbn in Hx. repeat (destruct Hx as [<-|Hx]; [split; [reflexivity|discriminate]|]). destruct Hx.
  - eapply killed_comes; [| | |exact R].
    + intros [|i] p Hp; cbn in Hp; try (destruct i; discriminate); injection Hp as <-.
      exists (new_conn 0 1 (Some server_at)). repeat split. left. destruct (SA 0) as (k & E & T). exists k. cbn. auto.
    + reflexivity.
    + intros x Hx. cbn in Hx. repeat (destruct Hx as [<-|Hx]; [split; [reflexivity|discriminate]|]). destruct Hx.
Qed.
Print Assumptions C85_client_killed.

(** C85.  If the server cannot make the segment that a new publisher asks for, Publisher.create raises, provided that an
    exception in the server's handler closes the connection (Python 3.12 and later). *)
Theorem C85_no_segment :
  forall s server_at peer id attach topic num_buffers buf_size bound,
    sendable (sv_version s) -> fits64 num_buffers -> fits64 buf_size ->
    sv_new_shm s num_buffers buf_size = None -> sv_error_closes s = true ->
    comes_to (fun n => outcome_of 0 n = Some (Raise ValueError) /\ outcome_of 2 n = Some (Raise ValueError))
      (publisher_net s server_at peer id false attach topic num_buffers buf_size bound).
Proof.
  intros s server_at peer id attach topic num_buffers buf_size bound Hv Hn Hb Hs He.
  unfold publisher_net, publisher_create, create_shm, open_connection, api, start.
  eapply goes_comes.
  - connect 0 1. exchange x_str 1 0. connect 0 2. exchange x_str 2 0.
    command 0 2. exchange x_int 0 2. exchange x_int 0 2. rewrite Hs. unfold api_error. rewrite He.
    eapply goes_trans; [eapply (x_close 2 0); cycle 1; [reflexivity|reflexivity|reflexivity|ends_ok]|tidy].
    change (is_cmd None COMPLETE) with false. cbv iota.
    eapply goes_trans; [eapply (goes_step (Run 0)); reflexivity|]. tidy.
    eapply goes_trans; [eapply (goes_step (Deliver 1 true)); reflexivity|]. tidy. apply goes_refl.
  - stuck_tac.
  - split; reflexivity.
Qed.
Print Assumptions C85_no_segment.

(** C85 finding: with Python 3.10 or 3.11 an exception in the server's handler leaves the connection open, so that
    Publisher.create never returns when the server cannot make the segment (for example num_buffers=0:
    SharedMemory(size=0) raises ValueError). *)
Theorem C85_no_segment_refuted :
  forall s server_at peer id attach topic num_buffers buf_size bound,
    sendable (sv_version s) -> fits64 num_buffers -> fits64 buf_size ->
    sv_new_shm s num_buffers buf_size = None -> sv_error_closes s = false ->
    comes_to (fun n => exists p, outcome_of 0 n = Some p /\ ~ over p)
      (publisher_net s server_at peer id false attach topic num_buffers buf_size bound).
Proof.
  intros s server_at peer id attach topic num_buffers buf_size bound Hv Hn Hb Hs He.
  unfold publisher_net, publisher_create, create_shm, open_connection, api, start.
  eapply goes_comes.
  - connect 0 1. exchange x_str 1 0. connect 0 2. exchange x_str 2 0.
    command 0 2. exchange x_int 0 2. exchange x_int 0 2. rewrite Hs. unfold api_error. rewrite He. apply goes_refl.
  - stuck_tac.
  - eexists. split; [reflexivity|]. cbn. tauto.
Qed.
Print Assumptions C85_no_segment_refuted.

(** C85 finding: a topic that cannot be encoded (a lone surrogate) makes Publisher.create raise between the command and its
    argument; the server's handler then waits for the topic with the command lock held, for as long as the connection
    stays open, and nobody else can register. *)
Theorem C85_bad_topic_refuted :
  forall s server_at peer id attach topic num_buffers buf_size bound name,
    sendable (sv_version s) -> fits64 num_buffers -> fits64 buf_size ->
    sv_new_shm s num_buffers buf_size = Some name -> sendable name -> attach name = true ->
    (exists c, In c topic /\ scalar c = false) ->
    comes_to (fun n => outcome_of 0 n = Some (Raise ValueError) /\ open 0 n /\
        exists p, nth_error (n_procs n) 1 = Some p /\ p_locked p = true /\ ~ over (p_prog p))
      (publisher_net s server_at peer id false attach topic num_buffers buf_size bound).
Proof.
  intros s server_at peer id attach topic num_buffers buf_size bound name Hv Hn Hb Hs Hname Hat Ht.
  unfold publisher_net, publisher_create, create_shm, open_connection, api, api_publish, start.
  eapply goes_comes.
  - connect 0 1. exchange x_str 1 0. connect 0 2. exchange x_str 2 0.
    command 0 2. exchange x_int 0 2. exchange x_int 0 2. rewrite Hs. unfold api_shm.
    command 2 0. exchange x_str 2 0. rewrite Hat.
    command 0 1. eapply goes_trans; [eapply (x_lock 1); reflexivity|tidy].
    unfold wr_str at 1. rewrite (unsendable_fails topic Ht). apply goes_refl.
  - stuck_tac.
  - split; [reflexivity|]. split; [open_tac|]. eexists. split; [reflexivity|]. cbn. auto.
Qed.
Print Assumptions C85_bad_topic_refuted.

(** C85 finding: if the publisher is gone when a channel dials it, Channel.create raises but leaves its connection to
    the server open, and the server keeps the channel that was never made among its clients. *)
Theorem C85_publisher_gone_refuted :
  forall s server_at peer id lock attach pid pub_id pub_topic addr pub_peer pub_at topic shm num_buffers,
    sendable (sv_version s) -> id_ok pub_id ->
    get pub_id (sv_clients s) = Some (PublisherInfo pub_id pub_topic addr pub_peer) -> address_ok (pub_peer, snd addr) ->
    pub_at <> Some (pub_peer, snd addr) ->
    comes_to (fun n =>
        outcome_of 0 n = Some (Raise OSError) /\ outcome_of 1 n = Some (Return (Registered (ChannelInfo id pub_id))) /\
        open 0 n)
      (channel_net s server_at peer id lock attach pid pub_id pub_at topic shm num_buffers).
Proof.
  intros s server_at peer id lock attach pid pub_id pub_topic addr pub_peer pub_at topic shm num_buffers H1 H2 H3 H4 H5.
  eapply goes_comes; [eapply channel_goes_refused; eassumption| |].
  - intros [i|c out]; [do 4 (destruct i as [|i]; [reflexivity|]); destruct i; reflexivity|].
    do 3 (destruct c as [|c]; [destruct out; reflexivity|]); destruct c; reflexivity.
  - split; [reflexivity|]. split; [reflexivity|]. open_tac.
Qed.
Print Assumptions C85_publisher_gone_refuted.

(** C85 finding: a channel on a host that cannot open the segment (another machine) falls back to TCP, but the
    connection it opened for the segment stays open, so the server counts a lease that nobody uses. *)
Theorem C85_remote_lease_refuted :
  forall s server_at peer id lock attach pid pub_id pub_topic addr pub_peer topic shm num_buffers,
    sendable (sv_version s) -> id_ok id -> sendable topic -> sendable shm ->
    fits64 num_buffers -> (0 < num_buffers)%N -> fits64 pid -> id_ok pub_id ->
    get pub_id (sv_clients s) = Some (PublisherInfo pub_id pub_topic addr pub_peer) -> address_ok (pub_peer, snd addr) ->
    In shm (sv_shms s) -> attach shm = false ->
    comes_to (fun n =>
        outcomes n = [Return (Channel id pub_id topic None num_buffers);
                      Return (Registered (ChannelInfo id pub_id));
                      Return (Connected id pid false);
                      Return (Leased shm)] /\ open 2 n)
      (channel_net s server_at peer id lock attach pid pub_id (Some (pub_peer, snd addr)) topic shm num_buffers).
Proof.
  intros s server_at peer id lock attach pid pub_id pub_topic addr pub_peer topic shm num_buffers
    H1 H2 H3 H4 H5 H6 H7 H8 H9 H10 H11 H12.
  eapply goes_comes; [eapply channel_goes_unattached; try eassumption; now apply mem_In|stuck_tac|].
  split; [reflexivity|]. open_tac.
Qed.
Print Assumptions C85_remote_lease_refuted.

(** C85 finding: if the server dies after it has given a subscriber its identifier and before its COMPLETE,
    Subscriber.create neither returns nor raises. *)
Theorem C85_server_dies_subscriber_refuted :
  forall s server_at peer id topic,
    sendable (sv_version s) -> id_ok id -> sendable topic ->
    exists sched n, run sched (subscriber_net s server_at peer id false topic) = Some n /\
      comes_to (fun m => outcome_of 0 m = Some Forever) (kill 1 n).
Proof.
  intros s server_at peer id topic Hv Hid Ht.
  assert (G : exists n, goes (subscriber_net s server_at peer id false topic) n /\
    comes_to (fun m => outcome_of 0 m = Some Forever) (kill 1 n)).
  { eexists. split.
    - unfold subscriber_net, subscriber_create, open_connection, api, api_subscribe, start.
      connect 0 1. exchange x_str 1 0. command 0 1.
      eapply goes_trans; [eapply (x_lock 1); reflexivity|tidy].
      exchange x_str 0 1. exchange x_uuid 1 0. cbn [sub_graph_connection]. apply goes_refl.
    - cbn [kill set_nth n_procs n_conns n_lock map]. unfold idle. cbn [c_from c_to c_at c_made c_out c_back Nat.eqb andb negb].
      eapply goes_comes.
      + eapply goes_trans; [eapply (goes_step (Deliver 0 false)); reflexivity|]. tidy.
        eapply goes_trans; [eapply (goes_step (Run 0)); reflexivity|]. tidy. apply goes_refl.
      + stuck_tac.
      + reflexivity. }
  destruct G as (n & (k & R) & C). apply reach_run in R. destruct R as (sched & R). eauto.
Qed.
Print Assumptions C85_server_dies_subscriber_refuted.

(** C85 finding: if the server dies after it has given a publisher its identifier and before it has read the address,
    Publisher.create returns a publisher that was never registered (only a warning is logged). *)
Theorem C85_server_dies_publisher_refuted :
  forall s server_at peer id attach topic num_buffers buf_size bound name,
    sendable (sv_version s) -> id_ok id -> sendable topic -> fits64 num_buffers -> fits64 buf_size -> address_ok bound ->
    sv_new_shm s num_buffers buf_size = Some name -> sendable name -> attach name = true ->
    exists sched n,
      run sched (publisher_net s server_at peer id false attach topic num_buffers buf_size (Some bound)) = Some n /\
      (forall e, outcome_of 1 n <> Some (Return (Registered e))) /\
      comes_to (fun m => outcome_of 0 m = Some (Return (Publisher id topic name num_buffers)) /\
                         outcome_of 1 m = Some (Return Dead)) (kill 2 (kill 1 n)).
Proof.
  intros s server_at peer id attach topic num_buffers buf_size bound name Hv Hid Ht Hn Hb Ha Hs Hname Hat.
  assert (G : exists n, goes (publisher_net s server_at peer id false attach topic num_buffers buf_size (Some bound)) n /\
    (forall e, outcome_of 1 n <> Some (Return (Registered e))) /\
    comes_to (fun m => outcome_of 0 m = Some (Return (Publisher id topic name num_buffers)) /\
                       outcome_of 1 m = Some (Return Dead)) (kill 2 (kill 1 n))).
  { eexists. split; [|split].
    - unfold publisher_net, publisher_create, create_shm, open_connection, api, api_publish, start.
      connect 0 1. exchange x_str 1 0. connect 0 2. exchange x_str 2 0.
      command 0 2. exchange x_int 0 2. exchange x_int 0 2. rewrite Hs. unfold api_shm.
      command 2 0. exchange x_str 2 0. rewrite Hat.
      command 0 1. eapply goes_trans; [eapply (x_lock 1); reflexivity|tidy].
      exchange x_str 0 1. exchange x_uuid 1 0. apply goes_refl.
    - intros e. discriminate.
    - cbn [kill set_nth n_procs n_conns n_lock map]. unfold idle. cbn [c_from c_to c_at c_made c_out c_back Nat.eqb andb negb].
      destruct (sendable_encodes _ (proj2 Ha)) as (b & B). unfold wr_str. rewrite B.
      eapply goes_comes.
      + eapply goes_trans; [eapply (goes_step (Deliver 0 false)); reflexivity|]. tidy.
        eapply goes_trans; [eapply (goes_step (Deliver 1 false)); reflexivity|]. tidy.
        eapply goes_trans; [eapply (goes_step (Run 0)); reflexivity|]. tidy.
        eapply goes_trans; [eapply (goes_step (Run 0)); reflexivity|]. tidy.
        eapply goes_trans; [eapply (deliver_all_out _ 0); reflexivity|]. tidy.
        apply goes_refl.
      + stuck_tac.
      + split; reflexivity. }
  destruct G as (n & (k & R) & E & C). apply reach_run in R. destruct R as (sched & R). eauto.
Qed.
Print Assumptions C85_server_dies_publisher_refuted.

(** ** A case that meets the hypotheses *)

Definition ascii_ok (s : pystr) : bool := forallb (fun c => (c <? 128)%N) s && (length s <? 100).

Lemma ascii_sendable s : ascii_ok s = true -> sendable s.
Proof.
  unfold ascii_ok. intros H. apply andb_prop in H. destruct H as (H1 & H2). split.
  - intros c Hc. rewrite forallb_forall in H1. specialize (H1 c Hc). apply N.ltb_lt in H1.
    unfold scalar. destruct (N.ltb_spec c 0xD800); [reflexivity|lia].
  - apply Nat.ltb_lt in H2. change (2 ^ 64)%N with 18446744073709551616%N. lia.
Qed.

(** Version "3", one publisher (number 7) with topic "A/OUT" (Unicode in the case below), listening on port 25979,
    connected from 10.0.0.2; segments "psm_1" and, for a new publisher, "psm_2". *)
Definition host2 : pystr := [49; 48; 46; 48; 46; 48; 46; 50]%N.
Definition topicA : pystr := [65; 47; 79; 85; 84]%N.
Definition topicB : pystr := [0xE9; 0x65E5; 0x1F600]%N.
Definition psm (n : N) : pystr := [112; 115; 109; 95; 48 + n]%N.
Definition srv : server :=
  mkServer [51]%N [(7, PublisherInfo 7 topicA (localhost, 25979%Z) host2); (8, SubscriberInfo 8 topicA)]%N [psm 1]
    (fun n b => if (n =? 0)%N then None else Some (psm 2)) (fun _ => [7; 9]%N) false.

Example C85_case :
  comes_to (fun n => outcomes n = [Return (Publisher 99 topicB (psm 2) 32); Return (Registered (PublisherInfo 99 topicB (localhost, 25980%Z) host2)); Return (Leased (psm 2))])
    (publisher_net srv (localhost, 25978%Z) host2 99 false (fun _ => true) topicB 32 65536 (Some (localhost, 25980%Z))) /\
  comes_to (fun n => outcomes n = [Return (Channel 99 7 topicA (Some (psm 1)) 32); Return (Registered (ChannelInfo 99 7)); Return (Connected 99 4242 true); Return (Leased (psm 1))])
    (channel_net srv (localhost, 25978%Z) host2 99 true (fun _ => true) 4242 7 (Some (host2, 25979%Z)) topicA (psm 1) 32) /\
  comes_to (fun n => exists pubs, outcomes n = [Return (Subscriber 99 topicA pubs); Return (Registered (SubscriberInfo 99 topicA))] /\ In 7%N pubs /\ In 9%N pubs)
    (subscriber_net srv (localhost, 25978%Z) host2 99 false topicA) /\
  show_uuid 0x12345678123456781234567812345678 =
    [49; 50; 51; 52; 53; 54; 55; 56; 45; 49; 50; 51; 52; 45; 53; 54; 55; 56; 45; 49; 50; 51; 52; 45; 53; 54; 55; 56; 49; 50; 51; 52; 53; 54; 55; 56]%N /\
  sv_new_shm srv 0 65536 = None /\ (exists c, In c [0xD800]%N /\ scalar c = false).
Proof.
  assert (TB : sendable topicB) by (split; [intros c [<-|[<-|[<-|[]]]]; reflexivity|reflexivity]).
  assert (AO : forall p : Z, (0 <= p < 65536)%Z -> ascii_ok (str_address (localhost, p)) = true -> address_ok (localhost, p)).
  { intros p _ H. split; [cbn; intuition discriminate|]. now apply ascii_sendable. }
  split; [|split; [|split; [|split; [|split]]]].
  - eapply comes_weaken; [|apply C85_publisher; try reflexivity; try (apply ascii_sendable; reflexivity)].
    + intros m H. apply H.
    + exact TB.
    + apply AO; [lia|reflexivity].
  - eapply comes_weaken; [|eapply (C85_channel srv _ _ _ _ _ _ _ topicA (localhost, 25979%Z) host2); try reflexivity; try (apply ascii_sendable; reflexivity)].
    + intros m H. apply H.
    + split; [cbn; intuition discriminate|]. apply ascii_sendable. reflexivity.
    + cbn. auto.
  - eapply comes_weaken; [|apply C85_subscriber; try reflexivity; try (apply ascii_sendable; reflexivity)].
    + intros m (pubs & H1 & H2 & _). exists pubs. split; [exact H1|]. split; apply H2; cbn; auto.
    + intros u [<-|[<-|[]]]; reflexivity.
  - reflexivity.
  - reflexivity.
  - exists 0xD800%N. split; [left; reflexivity|reflexivity].
Qed.
