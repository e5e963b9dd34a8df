(* Model of the graph server's control plane: /repo/src/ezmsg/core/graphserver.py.
   The topic graph is DagModel.v, the event logs are EventLogModel.v; sending
   routing updates to subscribers is RoutingModel.v (this file says only which
   topics or subscribers each command asks to notify).

   Atomicity: every command below runs under [_command_lock] (or, for a closing
   publisher/subscriber connection, without an await), so it is one step.
   Where the code awaits while it holds the lock (writing a routed request to a
   process), no other locked command can run in between, and the outcome of the
   write is part of the step's label.

   Simplifications: a client, process or request id is a number from one counter
   (uuid1() in the code: ids are never reused); a settings value is a number
   that stands for the whole SettingsSnapshotValue; pid, host and time stamps
   are not modelled; payload parsing (_read_typed_payload) is not modelled, a
   label carries the parsed payload. *)

From Coq Require Import String List Arith.
From Verif Require Import Dict DagModel EventLogModel.
Import ListNotations.

Notation value := nat.
Notation addr := string.

(** graphmeta.py:112-119 — ComponentMetadata: the address and the initial settings. *)
Record comp := mkComp { cm_addr : addr; cm_init : value }.

(** graphmeta.py:142-146 — GraphMetadata.components. *)
Notation metadata := (list (addr * comp)).

(** netprotocol.py:140-187 — PublisherInfo, SubscriberInfo, ChannelInfo,
    SessionInfo, ProcessInfo. *)
Inductive client :=
| CPub (t : topic)
| CSub (t : topic)
| CChan (pub : nat)
| CSess (edges : list edge) (md : option metadata)
| CProc (units : list addr).

(** graphserver.py:72-76 — _SettingsState. *)
Record sstate := mkSt { st_value : value; st_sess : option nat; st_proc : option nat }.

(** Contents of a settings event and of a topology event (graphmeta.py). *)
Inductive skind := INITIAL_SETTINGS | SETTINGS_UPDATED.
Record sev := mkSev { se_kind : skind; se_addr : addr; se_value : value;
                      se_sess : option nat; se_proc : option nat }.
Inductive tkind := GRAPH_CHANGED | PROCESS_CHANGED.
Record tev := mkTev { te_kind : tkind; te_topics : list topic;
                      te_sess : option nat; te_proc : option nat }.

(** How a routed request is answered (ProcessControlResponse): with the contents
    of a response, or with an error. *)
Inductive response :=
| RespFrom (proc : nat) (body : nat)
| RespUnroutable
| RespWriteFailed
| RespTimeout
| RespGone
| RespInvalid.

(** The future of a routed request: pending, resolved, or cancelled by wait_for's
    timeout. *)
Inductive future := FWaiting | FDone (r : response) | FCancelled.

(** graphserver.py:113-162 — the server's state. *)
Record server := mkServer {
  s_next : nat;
  s_dag : dag;
  s_clients : list (nat * client);
  s_set : list (addr * sstate);
  s_slog : log sev;
  s_owned : list (nat * list addr);
  s_tlog : log tev;
  s_pend : list (nat * nat);            (* request -> process, with its future in s_fut *)
  s_fut : list (nat * future);          (* requests whose handler is still waiting *)
  s_answers : list (nat * response);    (* answers given to sessions, in order *)
  s_sent : list (nat * (nat * addr))    (* requests written: id, process, unit *)
}.

(** graphserver.py:134-162. *)
Definition new_server (slimit tlimit : nat) : server :=
  mkServer 0 empty_dag [] [] (new_log slimit) [] (new_log tlimit) [] [] [] [].

Definition set_next n s := mkServer n (s_dag s) (s_clients s) (s_set s) (s_slog s) (s_owned s)
  (s_tlog s) (s_pend s) (s_fut s) (s_answers s) (s_sent s).
Definition set_dag d s := mkServer (s_next s) d (s_clients s) (s_set s) (s_slog s) (s_owned s)
  (s_tlog s) (s_pend s) (s_fut s) (s_answers s) (s_sent s).
Definition set_clients c s := mkServer (s_next s) (s_dag s) c (s_set s) (s_slog s) (s_owned s)
  (s_tlog s) (s_pend s) (s_fut s) (s_answers s) (s_sent s).
Definition set_set x s := mkServer (s_next s) (s_dag s) (s_clients s) x (s_slog s) (s_owned s)
  (s_tlog s) (s_pend s) (s_fut s) (s_answers s) (s_sent s).
Definition set_slog x s := mkServer (s_next s) (s_dag s) (s_clients s) (s_set s) x (s_owned s)
  (s_tlog s) (s_pend s) (s_fut s) (s_answers s) (s_sent s).
Definition set_owned x s := mkServer (s_next s) (s_dag s) (s_clients s) (s_set s) (s_slog s) x
  (s_tlog s) (s_pend s) (s_fut s) (s_answers s) (s_sent s).
Definition set_tlog x s := mkServer (s_next s) (s_dag s) (s_clients s) (s_set s) (s_slog s)
  (s_owned s) x (s_pend s) (s_fut s) (s_answers s) (s_sent s).
Definition set_pend x s := mkServer (s_next s) (s_dag s) (s_clients s) (s_set s) (s_slog s)
  (s_owned s) (s_tlog s) x (s_fut s) (s_answers s) (s_sent s).
Definition set_fut x s := mkServer (s_next s) (s_dag s) (s_clients s) (s_set s) (s_slog s)
  (s_owned s) (s_tlog s) (s_pend s) x (s_answers s) (s_sent s).
Definition set_answers x s := mkServer (s_next s) (s_dag s) (s_clients s) (s_set s) (s_slog s)
  (s_owned s) (s_tlog s) (s_pend s) (s_fut s) x (s_sent s).
Definition set_sent x s := mkServer (s_next s) (s_dag s) (s_clients s) (s_set s) (s_slog s)
  (s_owned s) (s_tlog s) (s_pend s) (s_fut s) (s_answers s) x.

(** What a command asks the server to notify afterwards: the topics whose
    downstream subscribers must be updated (graphserver.py:1732-1734), or one
    new subscriber (graphserver.py:451). *)
Inductive work := WTopics (ts : list topic) | WSub (id : nat).

(** The byte (or id) the client gets back. *)
Inductive reply := RpComplete | RpError | RpCyclic | RpId (n : nat) | RpNone.

(* ---- clients ---- *)

(** graphserver.py:1367-1371 — _session_info. *)
Definition session_info (sid : nat) (s : server) : option (list edge * option metadata) :=
  match get sid (s_clients s) with Some (CSess es md) => Some (es, md) | _ => None end.

(** graphserver.py:642-646 — _process_info. *)
Definition process_info (pid : nat) (s : server) : option (list addr) :=
  match get pid (s_clients s) with Some (CProc us) => Some us | _ => None end.

(** graphserver.py:1231-1241 — _process_for_unit / _process_owner_for_unit. *)
Fixpoint process_owner (u : addr) (cs : list (nat * client)) : option nat :=
  match cs with
  | [] => None
  | (id, CProc us) :: r => if mem u us then Some id else process_owner u r
  | _ :: r => process_owner u r
  end.

(** graphserver.py:1439-1447 — _session_owner_for_component_locked. *)
Fixpoint session_owner (a : addr) (cs : list (nat * client)) : option nat :=
  match cs with
  | [] => None
  | (id, CSess _ (Some md)) :: r => if mem a (keys md) then Some id else session_owner a r
  | _ :: r => session_owner a r
  end.

(** graphserver.py:1243-1257 — _metadata_collisions (the set; it is only tested
    for emptiness and logged). *)
Definition metadata_collisions (sid : nat) (md : metadata) (s : server) : list addr :=
  flat_map (fun p =>
    match snd p with
    | CSess _ (Some md') => if eqd (fst p) sid then []
                            else filter (fun a => mem a (keys md')) (keys md)
    | _ => []
    end) (s_clients s).

(* ---- settings ---- *)

(** graphserver.py:1373-1400. *)
Definition append_settings_event (e : sev) (s : server) : server :=
  set_slog (append e (s_slog s)) s.

(** graphserver.py:1402-1426. *)
Definition append_topology_event (e : tev) (s : server) : server :=
  set_tlog (append e (s_tlog s)) s.

(** graphserver.py:1428-1437 — _remove_settings_for_session_locked. *)
Definition remove_settings_for_session (sid : nat) (s : server) : server :=
  let addrs := getd sid [] (s_owned s) in
  let s1 := set_owned (del sid (s_owned s)) s in
  fold_left (fun s' a =>
    match get a (s_set s') with
    | None => s'
    | Some st =>
        if negb (eqd (st_sess st) (Some sid)) then s'
        else match st_proc st with
             | None => set_set (del a (s_set s')) s'
             | Some _ => set_set (put a (mkSt (st_value st) None (st_proc st)) (s_set s')) s'
             end
    end) addrs s1.

(** graphserver.py:1449-1464 — _initial_settings_for_component_locked. *)
Definition initial_settings (sid : nat) (a : addr) (s : server) : option value :=
  match session_info sid s with
  | Some (_, Some md) => option_map cm_init (get a md)
  | _ => None
  end.

(** graphserver.py:1466-1498 — _remove_settings_for_process_locked. *)
Definition remove_settings_for_process (pid : nat) (s : server) : server :=
  let addrs := map fst (filter (fun p => eqd (st_proc (snd p)) (Some pid)) (s_set s)) in
  fold_left (fun s' a =>
    match get a (s_set s') with
    | None => s'
    | Some st =>
        match st_sess st with
        | None => set_set (del a (s_set s')) s'
        | Some sid =>
            match initial_settings sid a s' with
            | None => set_set (del a (s_set s')) s'
            | Some v =>
                append_settings_event (mkSev SETTINGS_UPDATED a v (Some sid) None)
                  (set_set (put a (mkSt v (Some sid) None) (s_set s')) s')
            end
        end
    end) addrs s.

(** graphserver.py:1500-1530 — _apply_session_metadata_settings_locked. *)
Definition apply_metadata_one (sid : nat) (s : server) (c : comp) : server :=
  let st' := match get (cm_addr c) (s_set s) with
             | Some st => match st_proc st with
                          | Some _ => mkSt (st_value st) (Some sid) (st_proc st)
                          | None => mkSt (cm_init c) (Some sid) None
                          end
             | None => mkSt (cm_init c) (Some sid) None
             end in
  append_settings_event (mkSev INITIAL_SETTINGS (cm_addr c) (cm_init c) (Some sid) None)
    (set_set (put (cm_addr c) st' (s_set s)) s).

Definition apply_metadata (sid : nat) (md : metadata) (s : server) : server :=
  let s' := fold_left (apply_metadata_one sid) (map snd md) s in
  set_owned (put sid (fold_left (fun acc c => sadd (cm_addr c) acc) (map snd md) []) (s_owned s')) s'.

(* ---- commands ---- *)

(** graphserver.py:1347-1355 — _connect_owner. *)
Definition connect_owner (f t : topic) (o : owner) (s : server) : server * add_result :=
  let '(d, r) := add_edge f t o (s_dag s) in
  let s1 := set_dag d s in
  match r, o with
  | Cyclic, _ => (s1, r)                       (* CyclicException skips the rest *)
  | _, Some sid =>
      match session_info sid s1 with
      | Some (es, md) =>
          (set_clients (put sid (CSess (sadd (f, t) es) md) (s_clients s1)) s1, r)
      | None => (s1, r)
      end
  | _, None => (s1, r)
  end.

(** graphserver.py:1357-1365 — _disconnect_owner. *)
Definition disconnect_owner (f t : topic) (o : owner) (s : server) : server * bool :=
  let '(d, ch) := remove_edge f t o (s_dag s) in
  let s1 := set_dag d s in
  match o with
  | Some sid =>
      match session_info sid s1 with
      | Some (es, md) =>
          (set_clients (put sid (CSess (sdel (f, t) es) md) (s_clients s1)) s1, ch)
      | None => (s1, ch)
      end
  | None => (s1, ch)
  end.

(** The edge loop of graphserver.py:1641-1643 and 1662-1664. *)
Definition drop_edges (sid : nat) (es : list edge) (s : server) : server * list topic :=
  fold_left (fun acc e =>
    let '(s', ts) := acc in
    let '(s'', ch) := disconnect_owner (fst e) (snd e) (Some sid) s' in
    (s'', if ch : bool then sadd (snd e) ts else ts)) es (s, []).

Definition set_metadata (sid : nat) (md : option metadata) (s : server) : server :=
  match session_info sid s with
  | Some (es, _) => set_clients (put sid (CSess es md) (s_clients s)) s
  | None => s
  end.

Definition graph_changed_event (ts : list topic) (src : option nat) (s : server) : server :=
  match ts with
  | [] => s
  | _ => append_topology_event (mkTev GRAPH_CHANGED ts src None) s
  end.

(** graphserver.py:1635-1654 — _clear_session_state. *)
Definition clear_session (sid : nat) (s : server) : server * list topic :=
  match session_info sid s with
  | None => (s, [])
  | Some (es, _) =>
      let '(s1, ts) := drop_edges sid es s in
      let s2 := set_metadata sid None (remove_settings_for_session sid s1) in
      (graph_changed_event ts (Some sid) s2, ts)
  end.

(** graphserver.py:1656-1676 — _drop_session. *)
Definition drop_session (sid : nat) (s : server) : server * list topic :=
  match session_info sid s with
  | None => (s, [])
  | Some (es, _) =>
      let '(s1, ts) := drop_edges sid es s in
      let s2 := set_metadata sid None (remove_settings_for_session sid s1) in
      let s3 := set_clients (del sid (s_clients s2)) s2 in
      (graph_changed_event ts (Some sid) s3, ts)
  end.

(** graphserver.py:1590-1599 — the locked part of session registration. *)
Definition register_session (sid : nat) (md : metadata) (s : server) : server * reply :=
  match session_info sid s with
  | None => (s, RpComplete)
  | Some _ =>
      match metadata_collisions sid md s with
      | _ :: _ => (s, RpError)
      | [] => (apply_metadata sid md
                 (set_metadata sid (Some md) (remove_settings_for_session sid s)), RpComplete)
      end
  end.

(** Units of [us] owned by another process (graphserver.py:1061-1070, 1109-1118). *)
Definition conflicts (pid : nat) (us : list addr) (s : server) : list addr :=
  filter (fun u => match process_owner u (s_clients s) with
                   | Some o => negb (eqd o pid)
                   | None => false
                   end) us.

Definition same_set (a b : list addr) : bool :=
  forallb (fun x => mem x b) a && forallb (fun x => mem x a) b.

Definition process_changed (pid : nat) (before after : list addr) (s : server) : server :=
  if same_set before after then s
  else append_topology_event (mkTev PROCESS_CHANGED [] None (Some pid)) s.

(** [set(list)]. *)
Definition to_set (l : list addr) : list addr := fold_left (fun acc x => sadd x acc) l [].

(** graphserver.py:1056-1091 — the locked part of process registration. *)
Definition register_process (pid : nat) (us : list addr) (s : server) : server * reply :=
  match process_info pid s with
  | None => (s, RpError)
  | Some prev =>
      match conflicts pid us s with
      | _ :: _ => (s, RpError)
      | [] => (process_changed pid prev (to_set us)
                 (set_clients (put pid (CProc (to_set us)) (s_clients s)) s), RpComplete)
      end
  end.

(** graphserver.py:1104-1138 — the locked part of an ownership update. *)
Definition update_ownership (pid : nat) (added removed : list addr) (s : server) : server * reply :=
  match process_info pid s with
  | None => (s, RpError)
  | Some prev =>
      match conflicts pid added s with
      | _ :: _ => (s, RpError)
      | [] =>
          let us := filter (fun u => negb (mem u removed))
                           (fold_left (fun acc x => sadd x acc) added prev) in
          (process_changed pid prev us
             (set_clients (put pid (CProc us) (s_clients s)) s), RpComplete)
      end
  end.

(** graphserver.py:1151-1187 — the locked part of a settings update. *)
Definition settings_update (pid : nat) (a : addr) (v : value) (s : server) : server * reply :=
  match process_info pid s with
  | None => (s, RpError)
  | Some us =>
      if mem a us then
        let msid := match session_owner a (s_clients s) with
                    | Some sid => Some sid
                    | None => match get a (s_set s) with Some st => st_sess st | None => None end
                    end in
        (append_settings_event (mkSev SETTINGS_UPDATED a v msid (Some pid))
           (set_set (put a (mkSt v msid (Some pid)) (s_set s)) s), RpComplete)
      else (s, RpError)
  end.

(** [if not response_fut.done(): response_fut.set_result(...)]. *)
Definition set_result (req : nat) (r : response) (s : server) : server :=
  match get req (s_fut s) with
  | Some FWaiting => set_fut (put req (FDone r) (s_fut s)) s
  | _ => s
  end.

(** graphserver.py:711-745 — a process connection has closed. *)
Definition process_gone (pid : nat) (s : server) : server :=
  let reqs := map fst (filter (fun p => eqd (snd p) pid) (s_pend s)) in
  let s1 := fold_left (fun s' req =>
              match get req (s_pend s') with
              | None => s'
              | Some _ => set_result req RespGone (set_pend (del req (s_pend s')) s')
              end) reqs s in
  let s2 := remove_settings_for_process pid s1 in
  let s3 := append_topology_event (mkTev PROCESS_CHANGED [] None (Some pid)) s2 in
  set_clients (del pid (s_clients s3)) s3.

(** graphserver.py:1189-1229 — a response arrives from process [pid]. *)
Definition route_response (pid req body : nat) (s : server) : server :=
  match get req (s_pend s) with
  | None => s
  | Some owner =>
      let s1 := set_pend (del req (s_pend s)) s in
      if eqd owner pid then set_result req (RespFrom pid body) s1
      else set_result req RespInvalid s1
  end.

Definition answer (req : nat) (r : response) (s : server) : server :=
  set_answers (s_answers s ++ [(req, r)]) s.

(** graphserver.py:1266-1304 — _route_process_request up to the wait.
    [write_ok]: whether writing to the process succeeds. *)
Definition route_request (u : addr) (write_ok : bool) (s : server) : server :=
  let req := s_next s in
  let s1 := set_next (S req) s in
  match process_owner u (s_clients s1) with
  | None => answer req RespUnroutable s1
  | Some pid =>
      let s2 := set_pend (put req pid (s_pend s1)) (set_fut (put req FWaiting (s_fut s1)) s1) in
      if write_ok then set_sent (s_sent s2 ++ [(req, (pid, u))]) s2
      else answer req RespWriteFailed
             (set_fut (del req (s_fut s2)) (set_pend (del req (s_pend s2)) s2))
  end.

(* ---- the server as a transition system ---- *)

Inductive label :=
| LPublish (t : topic)                       (* graphserver.py:453-462 *)
| LSubscribe (t : topic)                     (* graphserver.py:444-451 *)
| LChannel (pub : nat)                       (* graphserver.py:302-343 *)
| LClientGone (id : nat)                     (* graphserver.py:562-566 *)
| LConnect (f t : topic)                     (* graphserver.py:470-497 *)
| LDisconnect (f t : topic)
| LSession                                   (* graphserver.py:345-357 *)
| LSessConnect (sid : nat) (f t : topic)     (* graphserver.py:1532-1566 *)
| LSessDisconnect (sid : nat) (f t : topic)
| LSessRegister (sid : nat) (md : metadata)  (* graphserver.py:1576-1600 *)
| LSessClear (sid : nat)                     (* graphserver.py:1568-1574 *)
| LSessGone (sid : nat)                      (* graphserver.py:631-640 *)
| LProcess                                   (* graphserver.py:408-420 *)
| LProcRegister (pid : nat) (us : list addr)
| LProcOwn (pid : nat) (added removed : list addr)
| LProcSettings (pid : nat) (a : addr) (v : value)
| LProcResponse (pid req body : nat)
| LProcGone (pid : nat)
| LRoute (u : addr) (write_ok : bool)
| LTimeoutFires (req : nat)                  (* wait_for cancels the future *)
| LTimeoutAnswer (req : nat)                 (* graphserver.py:1308-1321 *)
| LAnswer (req : nat).                       (* graphserver.py:1306-1307: the future's result *)

Definition changed_work (ch : bool) (t : topic) : list work := if ch then [WTopics [t]] else [].

(** One command; [None] when it cannot happen (no such client, nothing to answer). *)
Definition step (s : server) (l : label) : option (server * reply * list work) :=
  match l with
  | LPublish t =>
      let id := s_next s in
      Some (set_clients (put id (CPub t) (s_clients s)) (set_next (S id) s), RpId id, [WTopics [t]])
  | LSubscribe t =>
      let id := s_next s in
      Some (set_clients (put id (CSub t) (s_clients s)) (set_next (S id) s), RpId id, [WSub id])
  | LChannel pub =>
      match get pub (s_clients s) with
      | Some (CPub _) =>
          let id := s_next s in
          Some (set_clients (put id (CChan pub) (s_clients s)) (set_next (S id) s), RpId id, [])
      | _ => Some (s, RpNone, [])
      end
  | LClientGone id =>
      match get id (s_clients s) with
      | Some (CPub _) | Some (CSub _) | Some (CChan _) =>
          Some (set_clients (del id (s_clients s)) s, RpNone, [])
      | _ => None
      end
  | LConnect f t =>
      let '(s1, r) := connect_owner f t None s in
      match r with
      | Cyclic => Some (s1, RpCyclic, [])
      | Appeared => Some (append_topology_event (mkTev GRAPH_CHANGED [t] None None) s1,
                          RpComplete, changed_work true t)
      | Unchanged => Some (s1, RpComplete, [])
      end
  | LDisconnect f t =>
      let '(s1, ch) := disconnect_owner f t None s in
      Some ((if ch then append_topology_event (mkTev GRAPH_CHANGED [t] None None) s1 else s1),
            RpComplete, changed_work ch t)
  | LSession =>
      let id := s_next s in
      Some (set_clients (put id (CSess [] None) (s_clients s)) (set_next (S id) s), RpId id, [])
  | LSessConnect sid f t =>
      match session_info sid s with
      | None => None
      | Some _ =>
          let '(s1, r) := connect_owner f t (Some sid) s in
          match r with
          | Cyclic => Some (s1, RpCyclic, [])
          | Appeared => Some (append_topology_event (mkTev GRAPH_CHANGED [t] (Some sid) None) s1,
                              RpComplete, changed_work true t)
          | Unchanged => Some (s1, RpComplete, [])
          end
      end
  | LSessDisconnect sid f t =>
      match session_info sid s with
      | None => None
      | Some _ =>
          let '(s1, ch) := disconnect_owner f t (Some sid) s in
          Some ((if ch then append_topology_event (mkTev GRAPH_CHANGED [t] (Some sid) None) s1
                 else s1), RpComplete, changed_work ch t)
      end
  | LSessRegister sid md =>
      match session_info sid s with
      | None => None
      | Some _ => let '(s1, r) := register_session sid md s in Some (s1, r, [])
      end
  | LSessClear sid =>
      match session_info sid s with
      | None => None
      | Some _ => let '(s1, ts) := clear_session sid s in Some (s1, RpComplete, [WTopics ts])
      end
  | LSessGone sid =>
      match session_info sid s with
      | None => None
      | Some _ => let '(s1, ts) := drop_session sid s in Some (s1, RpNone, [WTopics ts])
      end
  | LProcess =>
      let id := s_next s in
      Some (set_clients (put id (CProc []) (s_clients s)) (set_next (S id) s), RpId id, [])
  | LProcRegister pid us =>
      match process_info pid s with
      | None => None
      | Some _ => let '(s1, r) := register_process pid us s in Some (s1, r, [])
      end
  | LProcOwn pid added removed =>
      match process_info pid s with
      | None => None
      | Some _ => let '(s1, r) := update_ownership pid added removed s in Some (s1, r, [])
      end
  | LProcSettings pid a v =>
      match process_info pid s with
      | None => None
      | Some _ => let '(s1, r) := settings_update pid a v s in Some (s1, r, [])
      end
  | LProcResponse pid req body =>
      match process_info pid s with
      | None => None
      | Some _ => Some (route_response pid req body s, RpNone, [])
      end
  | LProcGone pid =>
      match process_info pid s with
      | None => None
      | Some _ => Some (process_gone pid s, RpNone, [])
      end
  | LRoute u ok => Some (route_request u ok s, RpId (s_next s), [])
  | LTimeoutFires req =>
      match get req (s_fut s) with
      | Some FWaiting => Some (set_fut (put req FCancelled (s_fut s)) s, RpNone, [])
      | _ => None
      end
  | LTimeoutAnswer req =>
      match get req (s_fut s) with
      | Some FCancelled =>
          Some (answer req RespTimeout
                  (set_fut (del req (s_fut s)) (set_pend (del req (s_pend s)) s)), RpNone, [])
      | _ => None
      end
  | LAnswer req =>
      match get req (s_fut s) with
      | Some (FDone r) => Some (answer req r (set_fut (del req (s_fut s)) s), RpNone, [])
      | _ => None
      end
  end.

(** graphserver.py:1611-1623 — the settings snapshot: address -> value. *)
Definition settings_snapshot (s : server) (a : addr) : option value :=
  option_map st_value (get a (s_set s)).

(** Executions: the states reached from a new server, with the history of labels
    and replies (most recent last). *)
Inductive run (slimit tlimit : nat) : server -> list (label * reply) -> Prop :=
| run_new : run slimit tlimit (new_server slimit tlimit) []
| run_step s h l s' r w :
    run slimit tlimit s h -> step s l = Some (s', r, w) ->
    run slimit tlimit s' (h ++ [(l, r)]).
