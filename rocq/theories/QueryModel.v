(* Model of the graph snapshot and of the queries that clients build on it:
     graphserver.py:1678-1730 GraphServer._snapshot,
     graphcontext.py:356-394 GraphContext.register_metadata (the refusal's message),
     graphcontext.py:428-458 GraphContext.settings_input_topic,
     graphcontext.py:590-612, 625-640, 698-735 process_request,
       process_profiling_snapshot, profiling_snapshot_all, decode_process_payload,
   on top of the commands of ServerModel.v.

   A query awaits: between taking the snapshot and each request it then sends, the
   server may execute any number of commands of other clients.

   Simplifications: the snapshot is taken under [_command_lock]
   (graphserver.py:1507-1530), so it shows one state of the server; ids are
   numbers instead of strings of UUIDs; pid and host are left out; the sorting of
   the snapshot's lists is left out (they are sets or dicts to the reader), so
   the unit through which a process is asked is some unit, not the least. *)

From Coq Require Import String List Arith Bool.
From Verif Require Import Dict DagModel EventLogModel ServerModel ServerSpec.
Import ListNotations.

(** graphmeta.py:360-379 — GraphSnapshot, SnapshotSession, SnapshotProcess. *)
Record snap := mkSnap {
  sn_graph : graph;
  sn_owners : list (edge * list owner);
  sn_sess : list (nat * (list edge * option metadata));
  sn_procs : list (nat * list addr)
}.

(** graphserver.py:1678-1730 — _snapshot. *)
Definition snapshot (s : server) : snap :=
  mkSnap (d_graph (s_dag s)) (d_owners (s_dag s))
    (flat_map (fun p => match snd p with CSess es md => [(fst p, (es, md))] | _ => [] end) (s_clients s))
    (flat_map (fun p => match snd p with CProc us => [(fst p, us)] | _ => [] end) (s_clients s)).

(** What settings_input_topic returns or raises. *)
Inductive topic_result := Found (t : topic) | Conflicting | NotExposed.

(** graphcontext.py:428-458 — settings_input_topic.  [dyn c]: the input topic of a
    component whose dynamic settings are enabled and name one. *)
Definition topic_of (dyn : comp -> option topic) (a : addr) (md : option metadata) : list topic :=
  match md with
  | None => []
  | Some m => match get a m with
              | None => []
              | Some c => match dyn c with Some t => [t] | None => [] end
              end
  end.
Definition settings_input_topic (dyn : comp -> option topic) (sn : snap) (a : addr) : topic_result :=
  match fold_left (fun acc x => fold_left (fun b t => sadd t b) (topic_of dyn a (snd (snd x))) acc)
          (sn_sess sn) [] with
  | [] => NotExposed
  | [t] => Found t
  | _ :: _ :: _ => Conflicting
  end.

(** graphcontext.py:366-390 — the addresses named by the error that a refused
    registration of [md] by session [own] raises, from the snapshot taken then;
    with none it raises the generic message. *)
Definition named_collisions (own : nat) (md : metadata) (sn : snap) : list addr :=
  match map fst md with
  | [] => []
  | _ => fold_left (fun acc x => if eqd (fst x) own then acc
                      else match snd (snd x) with
                           | None => acc
                           | Some m => fold_left (fun b a => sadd a b)
                                         (filter (fun a => mem a (map fst m)) (map fst md)) acc
                           end) (sn_sess sn) []
  end.

(** A caller inside profiling_snapshot_all: the processes it has not come to yet, the
    process it is asking and the request it waits for, and the dict it will return
    (process id to the response's sender and contents).  [c_raised] only records
    for which processes the session raised, for the statements. *)
Record caller := mkCaller {
  c_todo : list (nat * list addr);
  c_wait : option (nat * nat);
  c_out : list (nat * (nat * nat));
  c_raised : list nat
}.

(** graphcontext.py:703-704 — the snapshot is taken, nothing is collected. *)
Definition start (sn : snap) : caller := mkCaller (sn_procs sn) None [] [].

(** graphcontext.py:709-714, 717-735 — the response to the request for process [p]:
    [good body] if it is ok and carries a ProcessProfilingSnapshot; anything else
    makes decode_process_payload raise, and the process is left out. *)
Definition take (good : nat -> bool) (p : nat) (r : response) (c : caller) : caller :=
  match r with
  | RespFrom q body =>
      if good body then mkCaller (c_todo c) None (put p (q, body) (c_out c)) (c_raised c)
      else mkCaller (c_todo c) None (c_out c) (c_raised c)
  | _ => mkCaller (c_todo c) None (c_out c) (c_raised c)
  end.

(** graphcontext.py:698-715 — profiling_snapshot_all, called when the server is in
    state [s0] with history [h0], among other commands. *)
Inductive calls (good : nat -> bool) (s0 : server) (h0 : hist) : server -> hist -> caller -> Prop :=
| cl_start : calls good s0 h0 s0 h0 (start (snapshot s0))
| cl_other s h c l s' r w : calls good s0 h0 s h c ->
    step s l = Some (s', r, w) -> calls good s0 h0 s' (h ++ [(l, r)]) c
| cl_skip s h p rest out ra : calls good s0 h0 s h (mkCaller ((p, []) :: rest) None out ra) ->
    calls good s0 h0 s h (mkCaller rest None out ra)
| cl_ask s h p u us rest out ra ok s' q w :
    calls good s0 h0 s h (mkCaller ((p, u :: us) :: rest) None out ra) ->
    step s (LRoute u ok) = Some (s', RpId q, w) ->
    calls good s0 h0 s' (h ++ [(LRoute u ok, RpId q)]) (mkCaller rest (Some (p, q)) out ra)
| cl_reply s h c p q r : calls good s0 h0 s h c -> c_wait c = Some (p, q) ->
    answers_to s q = [r] -> calls good s0 h0 s h (take good p r c)
| cl_raise_early s h p u us rest out ra :
    calls good s0 h0 s h (mkCaller ((p, u :: us) :: rest) None out ra) ->
    calls good s0 h0 s h (mkCaller rest None out (p :: ra))
| cl_raise s h todo p q out ra : calls good s0 h0 s h (mkCaller todo (Some (p, q)) out ra) ->
    calls good s0 h0 s h (mkCaller todo None out (p :: ra)).
