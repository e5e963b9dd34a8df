(* Model of the benchmark command (ezmsg perf benchmark) and of the report read from
   its log:
     util/perf/impl.py:74-181 LoadTestSource, LoadTestReceiver, LoadTestSink,
     util/perf/impl.py:198-238 fanout, fanin, relay,
     util/perf/impl.py:241-311 Communication, perform_test (who runs where),
     util/perf/impl.py:314-363 calculate_metrics,
     util/perf/run.py:110-248 benchmark (which tests are run and logged),
     util/perf/analysis.py:134-193 load_perf.

   Simplifications: time stamps are integers (ticks of the clock), and the figures
   computed from them are exact rationals instead of floating point; what the
   pipeline does with the messages is not repeated here (PubSub, Handler and Relay
   model it): the sink is given the samples that reach it; JSON encoding of the log
   is MsgCodec's; shuffling is any permutation (in the statements); names of
   configurations and communications are numbers where only their identity matters. *)

From Coq Require Import List Arith ZArith QArith Bool.
From Verif Require Import Dict.
Import ListNotations.
Local Open Scope nat_scope.

(* ---- the network of a test ---- *)

Inductive node := Source | Sink | Client (i : nat).
Inductive config := Fanin | Fanout | Relay.

(** impl.py:229-230 — zip(relays[:-1], relays[1:]). *)
Fixpoint links (l : list node) : list (node * node) :=
  match l with
  | a :: ((b :: _) as r) => (a, b) :: links r
  | _ => []
  end.

(** impl.py:198-238 — the connections a configurator returns for [n] clients. *)
Definition connections (c : config) (n : nat) : list (node * node) :=
  let clients := map Client (seq 0 n) in
  match c with
  | Fanout => (Source, Sink) :: map (fun x => (Source, x)) clients
  | Fanin => (Source, Sink) :: map (fun x => (x, Sink)) clients
  | Relay =>
      match clients with
      | [] => [(Source, Sink)]
      | r0 :: _ => (Source, r0) :: links clients ++ [(last clients Source, Sink)]
      end
  end.

(** impl.py:211-215 — the number of samples the sink waits for. *)
Definition expected (c : config) (n num : nat) : nat :=
  match c with Fanin => num * (1 + n) | _ => num end.

Inductive comms := Local | Shm | ShmSpread | Tcp | TcpSpread.

(** impl.py:269-302 — the process each component runs in; 0 is the caller's. *)
Definition place (m : comms) (x : node) : nat :=
  match m, x with
  | _, Sink => 0
  | Local, _ => 0
  | (ShmSpread | TcpSpread), Source => 1
  | (ShmSpread | TcpSpread), Client i => 2 + i
  | (Shm | Tcp), _ => 1
  end.
(** impl.py:264. *)
Definition force_tcp (m : comms) : bool := match m with Tcp | TcpSpread => true | _ => false end.

(* ---- source and sink ---- *)

(** impl.py:101-127 — the counters a source sends: [late i] if the time is up when it
    comes to message [i]. *)
Fixpoint source_from (late : nat -> bool) (num i : nat) : list nat :=
  match num with
  | 0 => []
  | S k => if late i then [] else i :: source_from late k (S i)
  end.
Definition source (late : nat -> bool) (num : nat) : list nat := source_from late num 0.

(** A received sample: when it was sent, when received, its counter. *)
Definition sample := (Z * Z * nat)%type.

(** impl.py:154-181 — the sink collects what reaches it and ends the test when it has
    what it waits for.  [true]: it ended the test (rather than the time-out). *)
Fixpoint sink (want : nat) (got : list sample) (arriving : list sample) : list sample * bool :=
  match arriving with
  | [] => (got, false)
  | x :: r =>
      let got' := got ++ [x] in
      if length got' =? want then (got', true) else sink want got' r
  end.

(* ---- figures ---- *)

Local Open Scope Z_scope.

Definition sent (x : sample) : Z := fst (fst x).
Definition recv (x : sample) : Z := snd (fst x).
Definition counter (x : sample) : nat := snd x.

(** sorted(), ndarray.sort(). *)
Fixpoint insert {A : Type} (le : A -> A -> bool) (x : A) (l : list A) : list A :=
  match l with
  | [] => [x]
  | y :: r => if le x y then x :: y :: r else y :: insert le x r
  end.
Definition sort {A : Type} (le : A -> A -> bool) (l : list A) : list A := fold_right (insert le) [] l.

(** np.diff. *)
Fixpoint diffs (l : list Z) : list Z :=
  match l with
  | a :: ((b :: _) as r) => (b - a) :: diffs r
  | _ => []
  end.

(** min() and max(); ValueError on nothing. *)
Definition zmin (l : list Z) : option Z :=
  match l with [] => None | a :: r => Some (fold_left Z.min r a) end.
Definition zmax (l : list Z) : option Z :=
  match l with [] => None | a :: r => Some (fold_left Z.max r a) end.

Definition total (l : list Z) : Z := fold_left Z.add l 0.

(** np.mean. *)
Definition mean (l : list Q) : Q := fold_left Qplus l 0%Q / inject_Z (Z.of_nat (length l)).
(** np.median (of something). *)
Definition median (l : list Q) : Q :=
  let s := sort Qle_bool l in
  let n := length l in
  if Nat.even n then ((nth (n / 2 - 1) s 0 + nth (n / 2) s 0) / 2)%Q else nth (n / 2) s 0%Q.

(** impl.py:60-68 — Metrics.  [rate_median = None] is nan. *)
Record metrics := mkMetrics {
  num_msgs : nat;
  rate_mean : Q;
  rate_median : option Q;
  lat_mean : Q;
  lat_median : Z;
  lat_total : Z;
  data_rate : Q
}.

(** impl.py:314-363 — calculate_metrics, with the settings' message size; [None] when it
    raises (nothing received, or a run time of zero). *)
Definition calculate_metrics (size : Z) (xs : list sample) : option metrics :=
  match zmin (map sent xs), zmax (map sent xs) with
  | Some lo, Some hi =>
      let runtime := hi - lo in
      let latency := map (fun x => recv x - sent x) xs in
      let n := length xs in
      if runtime =? 0 then None
      else
        let d := filter (fun z => negb (z =? 0)) (diffs (sort Z.leb (map recv xs))) in
        Some (mkMetrics n
          (inject_Z (Z.of_nat n) / inject_Z runtime)
          (match d with [] => None | _ => Some (/ median (map inject_Z d))%Q end)
          (inject_Z (Z.abs (total latency)) / inject_Z (Z.of_nat n))
          (nth (n / 2) (sort Z.leb latency) 0)
          (Z.abs (total latency))
          (inject_Z (Z.of_nat n * size) / inject_Z runtime))
  | _, _ => None
  end.

(** impl.py:324-327 — the number of dropped samples that is logged. *)
Definition dropped (xs : list sample) : Z :=
  total (map (fun z => Z.max (z - 1) 0) (diffs (sort Z.leb (map (fun x => Z.of_nat (counter x)) xs)))).

(* ---- the benchmark ---- *)

Local Open Scope nat_scope.

(** impl.py:366-374 — TestParameters: the coordinates (clients, size, communication,
    configuration) and the rest (messages, duration, buffers). *)
Definition coords := (nat * nat * nat * nat)%type.
Definition params := (coords * (nat * nat * nat))%type.

(** run.py:166-172 — the list of tests; [grid]: every size with every number of clients. *)
Definition test_list (grid : bool) (sizes clients confs coms : list nat) (iters : nat) : list coords :=
  let pairs := if grid then list_prod sizes clients else combine sizes clients in
  let base := flat_map (fun p => map (fun q => (snd p, fst p, snd q, fst q)) (list_prod confs coms)) pairs in
  concat (repeat base iters).

(** A line of the log: the environment, or a test with one of its figures. *)
Inductive line := Info | Entry (p : params) (v : Q).

(** run.py:205-248 — one repeat: [quit k] if the user has asked to stop before test [k],
    [result k] the figure of test [k].  [true]: stopped. *)
Fixpoint run_tests (rest : nat * nat * nat) (quit : nat -> bool) (result : nat -> Q) (k : nat)
  (tests : list coords) : list line * bool :=
  match tests with
  | [] => ([], false)
  | c :: r =>
      if quit k then ([], true)
      else let '(l, q) := run_tests rest quit result (S k) r in (Entry (c, rest) (result k) :: l, q)
  end.
Fixpoint run_repeats (rest : nat * nat * nat) (quit : nat -> nat -> bool) (result : nat -> nat -> Q)
  (tests : list coords) (i todo : nat) : list line :=
  match todo with
  | 0 => []
  | S k =>
      let '(l, q) := run_tests rest (quit i) (result i) 0 tests in
      Info :: l ++ (if q then [] else run_repeats rest quit result tests (S i) k)
  end.
Definition benchmark rest quit result tests repeats := run_repeats rest quit result tests 0 repeats.

(* ---- the report ---- *)

(** analysis.py:140-153 — all_results after some lines: run index and dict. *)
Definition results := list (params * list (nat * list Q)).
Definition read_line (st : nat * results) (l : line) : nat * results :=
  let '(idx, all) := st in
  match l with
  | Info => (S idx, all)
  | Entry p v =>
      let runs := getd p [] all in
      let ms := getd idx [] runs ++ [v] in
      (idx, put p (put idx ms runs) all)
  end.
Definition read_log (f : list line) : results :=
  snd (fold_left read_line (tl f) (0, [])).

(** analysis.py:169-193 — the cell of the report at coordinates [c]; [None] is nan. *)
Definition cells (all : results) : list (coords * Q) :=
  fold_left (fun acc e => put (fst (fst e)) (median (map (fun r => mean (snd r)) (snd e))) acc) all [].
Definition load_perf (f : list line) (c : coords) : option Q := get c (cells (read_log f)).
