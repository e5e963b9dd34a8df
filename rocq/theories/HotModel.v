(** The round-trip benchmark: src/ezmsg/util/perf/hotpath.py.

    Simplifications: exact rationals for floats; how long a sample takes, and whether it raises, is an arbitrary function of how many
    were taken before and of the case; random.shuffle is an arbitrary function; what is printed, the JSON file, the median of means
    (see Tune) and the coefficient of variation are left out; stable_perf is entered and left without an exception (see Tune). *)
From Coq Require Import String Ascii.
From Coq Require Import List Arith NArith ZArith QArith Bool.
From Verif Require Import CodecModel AddressModel CmdModel PerfModel TransportModel.
Import ListNotations.
Local Open Scope nat_scope.

(** hotpath.py 61-66 *)
Record case := mkCase { api : pystr; transport : pystr; payload : Z; buffers : Z }.

(** hotpath.py 68-73 — case_id *)
Definition case_id (c : case) : pystr :=
  api c ++ text "/" ++ transport c ++ text "/payload=" ++ str_int (payload c) ++ text "/buffers=" ++ str_int (buffers c).

(** str.__le__ *)
Fixpoint str_leb (a b : pystr) : bool :=
  match a, b with
  | [], _ => true
  | _ :: _, [] => false
  | x :: a, y :: b => if N.eqb x y then str_leb a b else N.ltb x y
  end.
Definition by_id (c d : case) : bool := str_leb (case_id c) (case_id d).

Definition among (l : list pystr) (s : pystr) : bool := existsb (str_eqb s) l.

(** hotpath.py 122-140 *)
Definition build_cases (apis transports : list pystr) (sizes : list Z) (num_buffers : Z) : list case :=
  sort by_id
    (flat_map (fun a => flat_map (fun t => flat_map (fun p =>
       if among [text "async"; text "sync"] a && among [text "local"; text "shm"; text "tcp"] t then [mkCase a t p num_buffers] else [])
       sizes) transports) apis).

(** hotpath.py 50-58: the arguments of the publisher; [allow_local = None]: not given. *)
Record pub_args := { pub_buffers : Z; force_tcp : bool; allow_local : option bool }.
Definition publisher_args (supports : bool) (c : case) : pub_args :=
  {| pub_buffers := buffers c; force_tcp := str_eqb (transport c) (text "tcp");
     allow_local := if supports then Some (str_eqb (transport c) (text "local")) else None |}.

(** The publisher made with them (hotpath.py 171, 196) in the environment with these two variables, by a process [pid]. *)
Definition publisher_of (tcp_env local_env : option string) (pid : nat) (a : pub_args) : pub_config :=
  {| env_force_tcp := tcp_env; env_allow_local := local_env; opt_force_tcp := Some (force_tcp a); opt_allow_local := allow_local a; pub_pid := pid |}.

(** hotpath.py 37-47 — _validate_transport_support: whether it raises nothing. *)
Definition validated (supports : bool) (c : case) : bool := str_eqb (transport c) (text "local") || supports.

(** hotpath.py 161-183, 186-208: what is done on the connection and the clock. *)
Inductive op := Send | Receive | Clock.
Fixpoint rounds (n : nat) : list op := match n with 0 => [] | S n => Send :: Receive :: rounds n end.
Definition roundtrip (count warmup : Z) : list op := rounds (Z.to_nat warmup) ++ [Clock] ++ rounds (Z.to_nat count) ++ [Clock].

(** hotpath.py 76-88, 143-158 *)
Record summary := { n_samples : nat; sec_median : Q; sec_mean : Q; sec_min : Q; sec_max : Q; us_median : Q; us_mean : Q; rate_median : Q; rate_mean : Q }.
Fixpoint least (a : Q) (l : list Q) : Q := match l with [] => a | x :: r => least (if Qle_bool a x then a else x) r end.
Fixpoint greatest (a : Q) (l : list Q) : Q := match l with [] => a | x :: r => greatest (if Qle_bool x a then a else x) r end.
(** [None]: StatisticsError or ZeroDivisionError. *)
Definition summarize (samples : list Q) (count : Z) : option summary :=
  match samples with
  | [] => None
  | a :: r =>
      if Z.eqb count 0 || existsb (fun s => Qeq_bool s 0) samples then None
      else
        let us := map (fun s => s / inject_Z count * inject_Z 1000000)%Q samples in
        let rates := map (fun s => inject_Z count / s)%Q samples in
        Some {| n_samples := length samples; sec_median := median samples; sec_mean := mean samples; sec_min := least a r; sec_max := greatest a r;
                us_median := median us; us_mean := mean us; rate_median := median rates; rate_mean := mean rates |}
  end.

Record result := { of_case : case; taken : list Q; figures : summary }.
Inductive event := ServerStarted | Level (n : Z) | Sampled (c : case) (ops : list op) | ServerStopped.

Record world := { shuffle : list case -> list case; server_starts : bool; supports : bool; elapsed : nat -> case -> option Q; level : Z }.

(** hotpath.py 218-229: [n] samples, [k] having been taken before. *)
Fixpoint take (w : world) (c : case) (ops : list op) (n k : nat) : list event * nat * option (list Q) :=
  match n with
  | 0 => ([], k, Some [])
  | S n =>
      if negb (validated (supports w) c) then ([], k, None)
      else match elapsed w k c with
           | None => ([Sampled c ops], S k, None)
           | Some t => let '(ev, k', r) := take w c ops n (S k) in (Sampled c ops :: ev, k', option_map (cons t) r)
           end
  end.

(** hotpath.py 211-237 *)
Definition run_case (w : world) (count warmup samples : Z) (c : case) (k : nat) : list event * nat * option result :=
  let '(ev, k', r) := take w c (roundtrip count warmup) (Z.to_nat samples) k in
  (ev, k', match r with
           | None => None
           | Some l => option_map (fun s => {| of_case := c; taken := l; figures := s |}) (summarize l count)
           end).

(** hotpath.py 268-277: the list of results. *)
Fixpoint run_cases (w : world) (count warmup samples : Z) (cs : list case) (k : nat) : list event * option (list result) :=
  match cs with
  | [] => ([], Some [])
  | c :: cs =>
      let '(ev, k', r) := run_case w count warmup samples c k in
      match r with
      | None => (ev, None)
      | Some x => let '(ev', r') := run_cases w count warmup samples cs k' in (ev ++ ev', option_map (cons x) r')
      end
  end.

(** hotpath.py 249-282 — run_hotpath_suite; [None]: an exception.  Level 30 is WARNING. *)
Definition suite (w : world) (count warmup samples : Z) (apis transports : list pystr) (sizes : list Z) (num_buffers : Z) (quiet : bool)
  : list event * option (list result) :=
  let cases := shuffle w (build_cases apis transports sizes num_buffers) in
  if negb (server_starts w) then ([], None)
  else
    let '(ev, r) := run_cases w count warmup samples cases 0 in
    let body := if quiet then Level 30 :: ev ++ [Level (level w)] else ev in
    (ServerStarted :: body ++ [ServerStopped], option_map (sort (fun x y => by_id (of_case x) (of_case y))) r).
