(** Steadying the process for a benchmark: src/ezmsg/util/perf/util.py ([stable_perf] and the robust average).

    Simplifications: niceness, priority class, CPUs, garbage collection, timer period, helper process and environment are
    fields of the process; a system call succeeds or fails as an arbitrary function of its arguments says, except that the
    rule of POSIX for niceness is spelt out (raising it is always allowed, lowering it down to the process's limit); failures are
    exceptions of class Exception; the busy loop of the warm-up changes nothing; exact rationals for floats. *)
From Coq Require Import String.
From Coq Require Import List Arith ZArith QArith Bool.
From Verif Require Import Dict PerfModel.
Import ListNotations.
Local Open Scope nat_scope.

Inductive platform := Linux | Mac | Windows.
Definition is_mac (x : platform) : bool := match x with Mac => true | _ => false end.
Definition is_win (x : platform) : bool := match x with Windows => true | _ => false end.

Inductive class := Normal | AboveNormal | High.

Record proc := {
  nice : Z;
  priority : class;                       (* Windows *)
  cpus : list nat;                        (* the affinity *)
  gc_on : bool;
  timers : nat;                           (* timeBeginPeriod without timeEndPeriod *)
  helpers : nat;                          (* caffeinate processes *)
  vars : list (string * string) }.        (* os.environ *)

Record world := {
  os : platform;
  has_psutil : bool;
  floor : Z;                              (* the lowest niceness the process may ask for *)
  nice_known : bool;                      (* p.nice() *)
  has_affinity : bool;                    (* hasattr(p, "cpu_affinity") *)
  cpus_known : bool;                      (* p.cpu_affinity() *)
  cpus_ok : list nat -> bool;             (* p.cpu_affinity(cpus) *)
  winmm : bool;                           (* ctypes.WinDLL("winmm") *)
  kernel32 : bool;
  class_ok : class -> bool;               (* SetPriorityClass *)
  begin_ok : bool; end_ok : bool;
  popen_ok : bool; terminate_ok : bool }.

Record options := {
  single_thread_math : bool; prefer_isolated_cpus : bool; warmup_seconds : Q;
  adjust_priority : bool; tweak_timer_windows : bool; keep_mac_awake : bool }.

Definition set_nice (p : proc) (z : Z) : proc :=
  {| nice := z; priority := priority p; cpus := cpus p; gc_on := gc_on p; timers := timers p; helpers := helpers p; vars := vars p |}.
Definition set_class (p : proc) (c : class) : proc :=
  {| nice := nice p; priority := c; cpus := cpus p; gc_on := gc_on p; timers := timers p; helpers := helpers p; vars := vars p |}.
Definition set_cpus (p : proc) (l : list nat) : proc :=
  {| nice := nice p; priority := priority p; cpus := l; gc_on := gc_on p; timers := timers p; helpers := helpers p; vars := vars p |}.
Definition set_gc (p : proc) (b : bool) : proc :=
  {| nice := nice p; priority := priority p; cpus := cpus p; gc_on := b; timers := timers p; helpers := helpers p; vars := vars p |}.
Definition set_timers (p : proc) (n : nat) : proc :=
  {| nice := nice p; priority := priority p; cpus := cpus p; gc_on := gc_on p; timers := n; helpers := helpers p; vars := vars p |}.
Definition set_helpers (p : proc) (n : nat) : proc :=
  {| nice := nice p; priority := priority p; cpus := cpus p; gc_on := gc_on p; timers := timers p; helpers := n; vars := vars p |}.
Definition set_vars (p : proc) (d : list (string * string)) : proc :=
  {| nice := nice p; priority := priority p; cpus := cpus p; gc_on := gc_on p; timers := timers p; helpers := helpers p; vars := d |}.

(** os.environ.setdefault *)
Definition setdefault (d : list (string * string)) (k v : string) : list (string * string) :=
  match get k d with Some _ => d | None => put k v d end.

Definition thread_vars : list string :=
  ["OMP_NUM_THREADS"; "MKL_NUM_THREADS"; "VECLIB_MAXIMUM_THREADS"; "OPENBLAS_NUM_THREADS"; "NUMEXPR_NUM_THREADS"]%string.

(** 23-34 *)
Definition set_env_threads (single : bool) (p : proc) : proc :=
  let d := if single then fold_left (fun d k => setdefault d k "1"%string) thread_vars (vars p) else vars p in
  set_vars p (setdefault d "PYTHONHASHSEED"%string "0"%string).

(** p.nice(z): [None] is an exception. *)
Definition ask_nice (w : world) (p : proc) (z : Z) : option proc :=
  if (nice p <=? z)%Z || (floor w <=? z)%Z then Some (set_nice p z) else None.
Fixpoint try_nice (w : world) (p : proc) (l : list Z) : proc :=
  match l with [] => p | z :: r => match ask_nice w p z with Some q => q | None => try_nice w p r end end.

(** 40-78 up to the yield: the process, and what is to be restored. *)
Definition enter_priority (w : world) (p : proc) : proc * option Z :=
  if negb (has_psutil w) then (p, None)
  else if is_win (os w) then
    (if negb (kernel32 w) then p
     else if class_ok w High then set_class p High
     else if class_ok w AboveNormal then set_class p AboveNormal else p, None)
  else if nice_known w then (try_nice w p [(-10)%Z; (-5)%Z; 0%Z], Some (nice p)) else (p, None).
(** 79-87 *)
Definition leave_priority (w : world) (orig : option Z) (p : proc) : proc :=
  match orig with Some z => match ask_nice w p z with Some q => q | None => p end | None => p end.

(** 103-109 *)
Definition choose (prefer_isolation : bool) (l : list nat) : list nat :=
  if prefer_isolation && (2 <? length l) then [nth (length l / 2 - 1) l 0; nth (length l / 2) l 0] else l.

(** 90-117: the process, what is to be restored, and whether the block is entered. *)
Definition enter_affinity (w : world) (p : proc) : proc * option (list nat) * bool :=
  if negb (has_psutil w) || is_mac (os w) then (p, None, true)
  else if negb (has_affinity w) then (p, None, true)
  else if negb (cpus_known w) then (p, None, false)
  else let l := choose true (cpus p) in
    if cpus_ok w l then (set_cpus p l, Some (cpus p), true) else (p, Some (cpus p), false).
Definition leave_affinity (w : world) (orig : option (list nat)) (p : proc) : proc :=
  match orig with Some l => if cpus_ok w l then set_cpus p l else p | None => p end.

(** 123-143 *)
Definition enter_caffeinate (w : world) (p : proc) : proc * bool :=
  if is_mac (os w) && popen_ok w then (set_helpers p (S (helpers p)), true) else (p, false).
Definition leave_caffeinate (w : world) (started : bool) (p : proc) : proc :=
  if started && terminate_ok w then set_helpers p (helpers p - 1) else p.

(** 146-170: [false] in the end: an exception on the way in. *)
Definition enter_timer (w : world) (p : proc) : proc * bool * bool :=
  if negb (is_win (os w)) then (p, false, true)
  else if negb (winmm w) then (p, false, false)
  else (if begin_ok w then set_timers p (S (timers p)) else p, true, true).
Definition leave_timer (w : world) (entered : bool) (p : proc) : proc :=
  if entered && end_ok w then set_timers p (timers p - 1) else p.

(** What happens to the caller: the block was run and ended so, or it was not run. *)
Inductive outcome (X : Type) := Ran (x : X) | NotRun.
Arguments Ran {X} x.
Arguments NotRun {X}.

(** 196-208, and the block. *)
Definition gc_paused {X : Type} (block : proc -> proc * X) (p : proc) : proc * X :=
  let '(q, x) := block (set_gc p false) in
  (if gc_on p then set_gc q true else q, x).

(** 254-278 *)
Definition stable_perf {X : Type} (w : world) (o : options) (block : proc -> proc * X) (p : proc) : proc * outcome X :=
  let p := set_env_threads (single_thread_math o) p in
  let '(p, orig_nice) := if adjust_priority o then enter_priority w p else (p, None) in
  let '(p, timer, go) := if tweak_timer_windows o then enter_timer w p else (p, false, true) in
  if negb go then (leave_priority w orig_nice p, NotRun)
  else
    let '(p, orig_cpus, go) := if prefer_isolated_cpus o then enter_affinity w p else (p, None, true) in
    if negb go then (leave_priority w orig_nice (leave_timer w timer (leave_affinity w orig_cpus p)), NotRun)
    else
      let '(p, caff) := if keep_mac_awake o then enter_caffeinate w p else (p, false) in
      let '(p, x) := gc_paused block p in
      (leave_priority w orig_nice (leave_timer w timer (leave_affinity w orig_cpus (leave_caffeinate w caff p))), Ran x).

(** buckets[i % k].append(v) *)
Definition bucket (k b : nat) (samples : list Q) : list Q :=
  map snd (filter (fun iv => fst iv mod k =? b) (combine (seq 0 (length samples)) samples)).

(** 214-227; [None] is nan. *)
Definition median_of_means (samples : list Q) (k : Z) : option Q :=
  match samples with
  | [] => None
  | _ =>
      let k := Z.to_nat (Z.max 1 (Z.min k (Z.of_nat (length samples)))) in
      let means := map mean (filter (fun b => negb (length b =? 0)) (map (fun b => bucket k b samples) (seq 0 k))) in
      let means := sort Qle_bool means in
      Some (nth (length means / 2) means 0%Q)
  end.
