(* Model of the graph server's profiling trace streams, graphserver.py:
     1021-1043  _handle_process_profiling_trace_update_request (a process pushes samples),
      911-974   _collect_profiling_trace_stream_batch (what a subscriber is sent at a tick),
      976-1019  _handle_profiling_subscriber (its cursors and what is written to it),
      735-739   the buffers are dropped when the process disconnects.

   Each of these runs under the command lock (or is the subscriber's own), so each is one
   step.  Simplifications: pid, host and timestamps of batches are left out; processes are
   visited in the order of the filter or of connection, not sorted by their printed id
   (a batch is a dict by process, so the order is not observable); a subscriber
   whose connection breaks just stops polling. *)

From Coq Require Import List Arith Bool.
From Verif Require Import Dict.
Import ListNotations.

Section TraceStream.
Context {A : Type}.                 (* samples *)
Context (limit : nat).              (* profiling_trace_buffer_limit, 82-84 *)

(** graphmeta.py:348-352 — ProfilingStreamControl (the interval is left out). *)
Record stream_control := mkStream {
  sc_max : nat;
  sc_processes : option (list nat);
  sc_empty : bool                   (* include_empty_batches *)
}.

(** A profiling subscriber: its control, last_seq_by_process (986), and the batches written to it. *)
Record reader := mkReader {
  rd_control : stream_control;
  rd_last : list (nat * nat);
  rd_out : list (list (nat * list A))
}.

Record server := mkServer {
  sv_connected : list nat;                    (* clients that are ProcessInfo *)
  sv_buffers : list (nat * list (nat * A));   (* _profiling_trace_buffers *)
  sv_seq : list (nat * nat);                  (* _profiling_trace_seq *)
  sv_readers : list (nat * reader)
}.

Definition new_server : server := mkServer [] [] [] [].

(** deque(maxlen=limit).append *)
Definition append_bounded (b : list (nat * A)) (x : nat * A) : list (nat * A) :=
  skipn (length (b ++ [x]) - limit) (b ++ [x]).

(** 1038-1041 *)
Fixpoint append_samples (next : nat) (b : list (nat * A)) (xs : list A) : nat * list (nat * A) :=
  match xs with
  | [] => (next, b)
  | x :: xs => append_samples (S next) (append_bounded b (S next, x)) xs
  end.

(** 1032-1043 *)
Definition trace_update (p : nat) (xs : list A) (s : server) : server :=
  let b := getd p [] (sv_buffers s) in
  let n := getd p 0 (sv_seq s) in
  let (n', b') := append_samples n b xs in
  mkServer (sv_connected s) (put p b' (sv_buffers s)) (put p n' (sv_seq s)) (sv_readers s).

(** 949-955: the samples newer than [last], at most [room] of them ([room] >= 1 on entry). *)
Fixpoint newer (last room : nat) (b : list (nat * A)) : nat * list A :=
  match b with
  | [] => (last, [])
  | (seq, x) :: b =>
      if seq <=? last then newer last room b
      else match room with
           | 0 | 1 => (seq, [x])                       (* 954-955 *)
           | S room' => let (l, xs) := newer seq room' b in (l, x :: xs)
           end
  end.

(** 942-971, for one process: the new cursors and the process's batch. *)
Definition collect_process (c : stream_control) (bufs : list (nat * list (nat * A))) (p : nat)
    (acc : list (nat * nat) * list (nat * list A)) : list (nat * nat) * list (nat * list A) :=
  let (last, batches) := acc in
  let '(last', samples) :=
    match get p bufs with
    | Some ((oldest, x) :: b) =>
        let l := getd p 0 last in
        let l := if l <? oldest - 1 then oldest - 1 else l in
        let (l', xs) := newer l (Nat.max 1 (sc_max c)) ((oldest, x) :: b) in
        (put p l' last, xs)
    | _ => (last, [])
    end in
  match samples with
  | [] => if sc_empty c then (last', put p [] batches) else (last', batches)
  | _ => (last', put p samples batches)
  end.

(** 917-940 *)
Definition stream_processes (c : stream_control) (s : server) : list nat :=
  match sc_processes c with
  | Some l => nodup dec l
  | None => sv_connected s
  end.

Definition collect (c : stream_control) (last : list (nat * nat)) (s : server)
  : list (nat * nat) * list (nat * list A) :=
  fold_left (fun acc p => collect_process c (sv_buffers s) p acc) (stream_processes c s) (last, []).

Inductive sop :=
| Connect (p : nat)
| Update (p : nat) (xs : list A)
| Leave (p : nat)
| Subscribe (r : nat) (c : stream_control)
| Poll (r : nat).

Definition sstep (s : server) (o : sop) : server :=
  match o with
  | Connect p => mkServer (sadd p (sv_connected s)) (sv_buffers s) (sv_seq s) (sv_readers s)
  | Update p xs => trace_update p xs s
  | Leave p => mkServer (sdel p (sv_connected s)) (del p (sv_buffers s)) (del p (sv_seq s)) (sv_readers s)
  | Subscribe r c => mkServer (sv_connected s) (sv_buffers s) (sv_seq s) (put r (mkReader c [] []) (sv_readers s))
  | Poll r =>
      match get r (sv_readers s) with
      | None => s
      | Some rd =>
          let (last, batches) := collect (rd_control rd) (rd_last rd) s in
          let out := match batches with [] => rd_out rd | _ => rd_out rd ++ [batches] end in   (* 1000-1001 *)
          mkServer (sv_connected s) (sv_buffers s) (sv_seq s) (put r (mkReader (rd_control rd) last out) (sv_readers s))
      end
  end.

Definition srun (ops : list sop) : server := fold_left sstep ops new_server.

End TraceStream.
Arguments sop A : clear implicits.
Arguments server A : clear implicits.
Arguments reader A : clear implicits.
