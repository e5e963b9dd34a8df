(** What C99 is about. *)
From Coq Require Import String.
From Coq Require Import List Arith ZArith QArith Bool.
From Verif Require Import Dict PerfSpec TuneModel.
Import ListNotations.
Local Open Scope nat_scope.

(** The block itself leaves the process's settings alone. *)
Definition tidy {X : Type} (block : proc -> proc * X) : Prop := forall q, fst (block q) = q.

(** The process may go back to the niceness it has, or cannot have left it: the limit is not above it, or it is not negative. *)
Definition may_return (w : world) (p : proc) : Prop := (floor w <= nice p \/ 0 <= nice p)%Z.

(** [a] and [b] are in the middle of [l], with one more behind them if the number is odd. *)
Definition middle (l : list nat) (a b : nat) : Prop :=
  exists l1 l2, l = l1 ++ a :: b :: l2 /\ (length l2 = length l1 \/ length l2 = S (length l1)).

(** What the block finds of the CPUs. *)
Definition settled (l l' : list nat) : Prop := (length l <= 2 /\ l' = l) \/ (2 < length l /\ exists a b, middle l a b /\ l' = [a; b]).

(** The variables that may be added. *)
Definition tuning_var (k : string) : Prop :=
  In k ["OMP_NUM_THREADS"; "MKL_NUM_THREADS"; "VECLIB_MAXIMUM_THREADS"; "OPENBLAS_NUM_THREADS"; "NUMEXPR_NUM_THREADS"; "PYTHONHASHSEED"]%string.

(** Nothing stands in the way of the block: on Windows the timer's library loads, and where there is psutil with affinities the
    CPUs can be read and set. *)
Definition unhindered (w : world) (o : options) (p : proc) : Prop :=
  (tweak_timer_windows o = true -> os w = Windows -> winmm w = true) /\
  (prefer_isolated_cpus o = true -> has_psutil w = true -> os w <> Mac -> has_affinity w = true ->
     cpus_known w = true /\ forall l, settled (cpus p) l -> cpus_ok w l = true).

(** Every [n]-th value, from the [b]-th on. *)
Fixpoint every (n b : nat) (l : list Q) : list Q :=
  match l with
  | [] => []
  | x :: r => match b with 0 => x :: every n (n - 1) r | S b => every n b r end
  end.

(** The values dealt out to [length means] players in turn; their averages. *)
Definition dealt (samples means : list Q) : Prop :=
  forall b m, nth_error means b = Some m -> is_mean m (every (length means) b samples).
