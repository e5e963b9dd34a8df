(* Model of how publishers and subscribers come to be connected to each other:
     pubclient.py:125-219 Publisher.create, 323-364 _graph_connection, 366-400 _channel_connect,
     subclient.py:56-93 Subscriber.create, 180-269 _graph_connection,
     messagechannel.py:132-207 Channel.create,
     graphserver.py:424-515 api (SUBSCRIBE, PUBLISH, CONNECT, DISCONNECT, DAG under
       the command lock), 302-343 (CHANNEL), 529-566 _handle_client,
     graphserver.py:1732-1782 _notify_subscriber, _upstream_pubs, _downstream_subs,
     netprotocol.py:114-137 ClientInfo.sync_writer,
   on top of the topic graph of DagModel.v.

   asyncio code between two awaits is one step, and which step comes next is arbitrary.
   Each connection delivers what is written to it in order.

   Simplifications.  Messages are not broken into bytes (C02, C75, C79 do that).  The
   commands are those of the asynchronous interface: sessions, which notify without
   the lock, are in RoutingModel.v (C30); without them the event of sync_writer is
   always set when an update begins, so that an update is written at once.  Each
   subscriber has a channel of its own to a publisher; that subscribers of one
   process share channels is in ChannelRegModel.v (C49).  Creating a channel is one
   step: it succeeds if the publisher is there and fails if it has gone; the channel
   a publisher makes to itself (pubclient.py:211-215) is left out.  A message reaches
   the subscribers that have a channel to the publisher at once; how it travels is in
   PubSubModel.v (C15, C16, C21).  The graph server does not stop. *)

From Coq Require Import String List Arith Bool.
From Verif Require Import Dict DagModel.
Import ListNotations.

(** Where Publisher.create is (pubclient.py:167-219). *)
Inductive pstage :=
| PAsked      (* PUBLISH and the topic are written; waits for the id *)
| PListens    (* has the id, listens for channels, has written its address *)
| PTold       (* the server has written COMPLETE *)
| PReady      (* create has returned *)
| PRaised     (* create has raised; nothing has closed its connection to the server *)
| PGone.      (* closed, or its process has died *)

Record pub := mkPub { p_topic : topic; p_stage : pstage; p_sent : bool (* its address *) }.

(** What the server writes to a subscriber: UPDATE with publishers, or COMPLETE. *)
Inductive smsg := Update (ps : list nat) | Complete.

Inductive sstage :=
| SAsked      (* SUBSCRIBE and the topic are written *)
| SOpen       (* registered; its task _graph_connection runs *)
| SDead       (* that task has ended with an exception *)
| SClosed.    (* closed, or its process has died *)

Record sub := mkSub {
  s_topic : topic;
  s_stage : sstage;
  s_ready : bool;                                (* create has returned *)
  s_inbox : list smsg;                           (* written by the server, not read *)
  s_work : option (list nat * list nat);         (* the update being applied: to be registered; all *)
  s_chans : list nat;                            (* publishers it has a channel to *)
  s_acks : nat;                                  (* COMPLETEs written, not read by the server *)
  s_got : list (nat * nat)                       (* messages received: publisher, message *)
}.

(** A command that waits for the lock. *)
Inductive request :=
| RPub
| RSub
| RConnect (f t : topic)
| RDisconnect (f t : topic)
| RQuery.                                        (* DAG *)

Inductive answer := AComplete | ACyclic | AGraph.

(** Why subscribers are notified, hence what follows. *)
Inductive cause := ForPub (p : nat) | ForSub (s : nat) | ForEdge.

(** The command that holds the lock. *)
Inductive job :=
| JAddress (p : nat)                             (* waits for the publisher's address, graphserver.py:446 *)
| JNotify (c : cause) (todo : list nat) (cur : option nat).
                                                 (* still to notify; the one whose COMPLETE is awaited *)

Record world := mkWorld {
  w_pubs : list (nat * pub);
  w_subs : list (nat * sub);
  w_next : nat;
  w_dag : dag;                                   (* GraphServer.graph *)
  w_clients : list nat;                          (* GraphServer.clients *)
  w_waiting : list (nat * request);
  w_job : option job;
  w_answers : list (nat * answer)                (* of connect(), disconnect(), dag() *)
}.

Definition start : world := mkWorld [] [] 0 empty_dag [] [] None [].

Inductive label :=
(* the program *)
| CallPublish (t : topic)
| CallSubscribe (t : topic)
| CallConnect (f t : topic)
| CallDisconnect (f t : topic)
| CallQuery
| PubCloses (p : nat)
| SubCloses (s : nat)
| Send (p m : nat)
(* the environment *)
| PortFails (p : nat)
(* by itself *)
| Take (i : nat)
| Listen (p : nat)
| Register (p : nat)
| Notify
| Ack (s : nat)
| TimeOut
| Finish
| PubReturns (p : nat)
| Read (s : nat)
| Join (s p : nat)
| JoinFails (s p : nat)
| Applied (s : nat)
| PubGone (p : nat)
| SubGone (s : nat).

(* Updates of one field. *)
Definition set_pubs x w := mkWorld x (w_subs w) (w_next w) (w_dag w) (w_clients w) (w_waiting w) (w_job w) (w_answers w).
Definition set_subs x w := mkWorld (w_pubs w) x (w_next w) (w_dag w) (w_clients w) (w_waiting w) (w_job w) (w_answers w).
Definition set_dag x w := mkWorld (w_pubs w) (w_subs w) (w_next w) x (w_clients w) (w_waiting w) (w_job w) (w_answers w).
Definition set_clients x w := mkWorld (w_pubs w) (w_subs w) (w_next w) (w_dag w) x (w_waiting w) (w_job w) (w_answers w).
Definition set_waiting x w := mkWorld (w_pubs w) (w_subs w) (w_next w) (w_dag w) (w_clients w) x (w_job w) (w_answers w).
Definition set_job x w := mkWorld (w_pubs w) (w_subs w) (w_next w) (w_dag w) (w_clients w) (w_waiting w) x (w_answers w).
Definition answer_call i a w := mkWorld (w_pubs w) (w_subs w) (w_next w) (w_dag w) (w_clients w) (w_waiting w) (w_job w) (w_answers w ++ [(i, a)]).
(* A new call, waiting for the lock (graphserver.py:426). *)
Definition ask r w := mkWorld (w_pubs w) (w_subs w) (S (w_next w)) (w_dag w) (w_clients w) (w_waiting w ++ [(w_next w, r)]) (w_job w) (w_answers w).

Definition put_pub i x w := set_pubs (put i x (w_pubs w)) w.
Definition put_sub i x w := set_subs (put i x (w_subs w)) w.

Definition with_stage g (p : pub) := mkPub (p_topic p) g (p_sent p).

(** graphserver.py:1760-1763, 1773-1776 _upstream_pubs: the ids. *)
Definition upstream_pubs (t : topic) (w : world) : list nat :=
  filter (fun i => match get i (w_pubs w) with
                   | Some p => mem (p_topic p) (upstream t (w_dag w))
                   | None => false
                   end) (w_clients w).

(** graphserver.py:1765-1768, 1778-1781 _downstream_subs: the ids. *)
Definition downstream_subs (t : topic) (w : world) : list nat :=
  filter (fun i => match get i (w_subs w) with
                   | Some s => mem (s_topic s) (downstream t (w_dag w))
                   | None => false
                   end) (w_clients w).

(** A channel to the publisher can be made: it is registered at the server and listens. *)
Definition reachable (g : pstage) : bool :=
  match g with PListens | PTold | PReady => true | _ => false end.

(** ClientInfo.set_sync: whoever awaits the subscriber's COMPLETE goes on (netprotocol.py:117-118, 135). *)
Definition set_sync (s : nat) (w : world) : world :=
  match w_job w with
  | Some (JNotify c todo (Some s')) => if dec s s' then set_job (Some (JNotify c todo None)) w else w
  | _ => w
  end.

(** broadcast (pubclient.py:475-569): to every subscriber that has a channel to the publisher. *)
Definition deliver (p m : nat) (s : sub) : sub :=
  if mem p (s_chans s)
  then mkSub (s_topic s) (s_stage s) (s_ready s) (s_inbox s) (s_work s) (s_chans s) (s_acks s) (s_got s ++ [(p, m)])
  else s.

(** The command [r] of call [i] has the lock (graphserver.py:426-515). *)
Definition execute (i : nat) (r : request) (w : world) : option world :=
  match r with
  | RPub => Some (set_job (Some (JAddress i)) w)                              (* 427-434, 446 *)
  | RSub =>                                                                   (* 427-443 *)
      match get i (w_subs w) with
      | Some s =>
          let g := match s_stage s with SAsked => SOpen | g => g end in
          Some (set_job (Some (JNotify (ForSub i) [i] None))
                 (set_clients (w_clients w ++ [i])
                   (put_sub i (mkSub (s_topic s) g (s_ready s) (s_inbox s) (s_work s) (s_chans s) (s_acks s) (s_got s)) w)))
      | None => None
      end
  | RConnect f t =>                                                           (* 462-487 *)
      match add_edge f t None (w_dag w) with
      | (d, Cyclic) => Some (answer_call i ACyclic (set_dag d w))
      | (d, Unchanged) => Some (answer_call i AComplete (set_dag d w))
      | (d, Appeared) =>
          let w1 := answer_call i AComplete (set_dag d w) in
          Some (set_job (Some (JNotify ForEdge (downstream_subs t w1) None)) w1)
      end
  | RDisconnect f t =>
      match remove_edge f t None (w_dag w) with
      | (d, false) => Some (answer_call i AComplete (set_dag d w))
      | (d, true) =>
          let w1 := answer_call i AComplete (set_dag d w) in
          Some (set_job (Some (JNotify ForEdge (downstream_subs t w1) None)) w1)
      end
  | RQuery => Some (answer_call i AGraph w)                                   (* 510-514 *)
  end.

Definition step (w : world) (l : label) : option world :=
  match l with
  | CallPublish t => Some (ask RPub (put_pub (w_next w) (mkPub t PAsked false) w))       (* pubclient.py:167-172 *)
  | CallSubscribe t => Some (ask RSub (put_sub (w_next w) (mkSub t SAsked false [] None [] 0 []) w))
                                                                                         (* subclient.py:73-75 *)
  | CallConnect f t => Some (ask (RConnect f t) w)
  | CallDisconnect f t => Some (ask (RDisconnect f t) w)
  | CallQuery => Some (ask RQuery w)
  | PubCloses p =>
      match get p (w_pubs w) with
      | Some x => Some (put_pub p (with_stage PGone x) w)
      | None => None
      end
  | SubCloses s =>                                                                       (* subclient.py:266-269 *)
      match get s (w_subs w) with
      | Some x => Some (put_sub s (mkSub (s_topic x) SClosed (s_ready x) (s_inbox x) None [] (s_acks x) (s_got x)) w)
      | None => None
      end
  | Send p m =>
      match get p (w_pubs w) with
      | Some (mkPub _ PReady _) => Some (set_subs (map (fun e => (fst e, deliver p m (snd e))) (w_subs w)) w)
      | _ => None
      end
  | PortFails p =>                                                                       (* pubclient.py:192 raises *)
      match get p (w_pubs w), w_job w with
      | Some (mkPub t PAsked b), Some (JAddress p') =>
          if dec p p' then Some (put_pub p (mkPub t PRaised b) w) else None
      | _, _ => None
      end
  | Take i =>
      match w_job w, get i (w_waiting w) with
      | None, Some r => execute i r (set_waiting (del i (w_waiting w)) w)
      | _, _ => None
      end
  | Listen p =>                                                                          (* pubclient.py:176-200 *)
      match get p (w_pubs w), w_job w with
      | Some (mkPub t PAsked _), Some (JAddress p') =>
          if dec p p' then Some (put_pub p (mkPub t PListens true) w) else None
      | _, _ => None
      end
  | Register p =>                                                                        (* graphserver.py:446-453 *)
      match get p (w_pubs w), w_job w with
      | Some (mkPub t _ true), Some (JAddress p') =>
          if dec p p' then
            let w1 := set_clients (w_clients w ++ [p]) w in
            Some (set_job (Some (JNotify (ForPub p) (downstream_subs t w1) None)) w1)
          else None
      | _, _ => None
      end
  | Notify =>                                                                            (* graphserver.py:1736-1748 *)
      match w_job w with
      | Some (JNotify c (s :: todo) None) =>
          match get s (w_subs w) with
          | Some x =>
              Some (set_job (Some (JNotify c todo (Some s)))
                     (put_sub s (mkSub (s_topic x) (s_stage x) (s_ready x)
                                       (s_inbox x ++ [Update (upstream_pubs (s_topic x) w)])
                                       (s_work x) (s_chans x) (s_acks x) (s_got x)) w))
          | None => None
          end
      | _ => None
      end
  | Ack s =>                                                                             (* graphserver.py:556-557 *)
      match get s (w_subs w) with
      | Some (mkSub t g r i k c (S n) got) =>
          if mem s (w_clients w) then Some (set_sync s (put_sub s (mkSub t g r i k c n got) w)) else None
      | _ => None
      end
  | TimeOut =>                                                                           (* graphserver.py:1747-1758 *)
      match w_job w with
      | Some (JNotify c todo (Some s)) => Some (set_job (Some (JNotify c todo None)) w)
      | _ => None
      end
  | Finish =>                                                                            (* graphserver.py:453-460 *)
      match w_job w with
      | Some (JNotify c [] None) =>
          let w1 := set_job None w in
          match c with
          | ForEdge => Some w1
          | ForPub p =>
              match get p (w_pubs w) with
              | Some (mkPub t PListens b) => Some (put_pub p (mkPub t PTold b) w1)
              | _ => Some w1
              end
          | ForSub s =>
              match get s (w_subs w) with
              | Some x => Some (put_sub s (mkSub (s_topic x) (s_stage x) (s_ready x) (s_inbox x ++ [Complete])
                                                 (s_work x) (s_chans x) (s_acks x) (s_got x)) w1)
              | None => Some w1
              end
          end
      | _ => None
      end
  | PubReturns p =>                                                                      (* pubclient.py:201-219 *)
      match get p (w_pubs w) with
      | Some (mkPub t PTold b) => Some (put_pub p (mkPub t PReady b) w)
      | _ => None
      end
  | Read s =>                                                                            (* subclient.py:196-233, 89 *)
      match get s (w_subs w) with
      | Some (mkSub t SOpen r (m :: i) None c a got) =>
          Some (put_sub s (match m with
                           | Complete => mkSub t SOpen true i None c a got
                           | Update ps => mkSub t SOpen r i (Some (filter (fun p => negb (mem p c)) ps, ps)) c a got
                           end) w)
      | _ => None
      end
  | Join s p =>                                                                          (* subclient.py:233-246 *)
      match get s (w_subs w), get p (w_pubs w) with
      | Some (mkSub t SOpen r i (Some (todo, all)) c a got), Some x =>
          if mem p todo && reachable (p_stage x)
          then Some (put_sub s (mkSub t SOpen r i (Some (sdel p todo, all)) (sadd p c) a got) w)
          else None
      | _, _ => None
      end
  | JoinFails s p =>                                  (* messagechannel.py:156-186 raises; subclient.py:261-269 *)
      match get s (w_subs w), get p (w_pubs w) with
      | Some (mkSub t SOpen r i (Some (todo, all)) c a got), Some x =>
          if mem p todo && negb (reachable (p_stage x))
          then Some (put_sub s (mkSub t SDead r i None [] a got) w)
          else None
      | _, _ => None
      end
  | Applied s =>                                                                         (* subclient.py:248-254 *)
      match get s (w_subs w) with
      | Some (mkSub t SOpen r i (Some ([], all)) c a got) =>
          Some (put_sub s (mkSub t SOpen r i None (filter (fun p => mem p all) c) (S a) got) w)
      | _ => None
      end
  | PubGone p =>                                                                         (* graphserver.py:553-566; 446 raises *)
      match get p (w_pubs w) with
      | Some (mkPub _ PGone b) =>
          if mem p (w_clients w) then Some (set_clients (sdel p (w_clients w)) w)
          else match w_job w with
               | Some (JAddress p') => if dec p p' then (if b then None else Some (set_job None w)) else None
               | _ => None
               end
      | _ => None
      end
  | SubGone s =>                                                                         (* graphserver.py:553-566 *)
      match get s (w_subs w) with
      | Some x =>
          if mem s (w_clients w) && match s_stage x with SDead | SClosed => true | _ => false end
          then Some (set_sync s (set_clients (sdel s (w_clients w)) w))
          else None
      | None => None
      end
  end.

Fixpoint steps (w : world) (ls : list label) : option world :=
  match ls with
  | [] => Some w
  | l :: r => match step w l with Some w' => steps w' r | None => None end
  end.
