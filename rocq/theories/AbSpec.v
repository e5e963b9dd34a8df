(** What C98 is about. *)
From Coq Require Import String Ascii.
From Coq Require Import List Arith QArith Bool Permutation.
From Verif Require Import Dict PerfSpec AbModel.
Import ListNotations.
Local Open Scope nat_scope.

(** The shuffle only changes the order. *)
Definition shuffles (w : world) : Prop := forall l, Permutation (shuffle w l) l.

(** The name of a variable. *)
Definition name (k : string) : Prop := k <> EmptyString /\ ~ In "="%char (list_ascii_of_string k).

(** The last assignment to [k] among the arguments gives [v]; there is none. *)
Definition assigned (values : list string) (k v : string) : Prop :=
  exists l1 l2, values = l1 ++ (k ++ "=" ++ v)%string :: l2 /\ forall v', ~ In (k ++ "=" ++ v')%string l2.
Definition unassigned (values : list string) (k : string) : Prop := forall v, ~ In (k ++ "=" ++ v)%string values.

(** What a side's child finds in a variable: what was given for that side, else what was given for both, else what the
    command itself has. *)
Definition value_for (w : world) (both own : list string) (k : string) (x : option string) : Prop :=
  (forall v, assigned own k v -> x = Some v) /\
  (unassigned own k -> forall v, assigned both k v -> x = Some v) /\
  (unassigned own k -> unassigned both k -> x = get k (base_env w)).

Definition own_env (o : options) (l : label) : list string := match l with A => env_a o | B => env_b o end.
Definition own_dir (o : options) (l : label) : option string := match l with A => dir_a o | B => dir_b o end.
Definition own_python (o : options) (l : label) : option string := match l with A => python_a o | B => python_b o end.
(** The side is compared in a worktree made for it. *)
Definition needs_worktree (o : options) (l : label) : Prop :=
  own_dir o l = None /\ is_current (match l with A => default_ref (ref_a o) "dev" | B => default_ref (ref_b o) "CURRENT" end) = false.
(** The tree of a side. *)
Definition tree_of (w : world) (o : options) (l : label) (t : tree) : Prop :=
  match own_dir o l with
  | Some p => t = Path p
  | None => (needs_worktree o l /\ t = Work l) \/ (~ needs_worktree o l /\ t = Path (root w))
  end.

(** The children of the rounds, in order. *)
Definition sides (order : list (label * label)) : list label := flat_map (fun p => [fst p; snd p]) order.
(** Which of the two children of a round is the side's. *)
Definition place (l : label) (p : label * label) : nat := if same (fst p) l then 0 else 1.

(** [xs] are the figures of a side for a case: in round [i] those of its child, [k] children having been started before the
    rounds. *)
Definition measured (w : world) (s : state) (k : nat) (order : list (label * label)) (l : label) (c : string) (xs : list Q) : Prop :=
  length xs = length order /\
  forall i p x, nth_error order i = Some p -> nth_error xs i = Some x ->
    exists j d, nth_error (runs s) (k + 2 * i + place l p) = Some (true, l, j) /\
      bench w (k + 2 * i + place l p) j = Some d /\ get c d = Some x.

(** What a line of the report says of the figures of the rounds. *)
Definition says (c : case) (xs ys : list Q) : Prop :=
  is_median (a_median c) xs /\ is_median (b_median c) ys /\
  (exists ds, Forall2 (fun p d => (d * fst p == (snd p - fst p) * 100)%Q) (combine xs ys) ds /\
     is_median (delta_median c) ds /\ is_mean (delta_mean c) ds) /\
  pair_count c = length xs /\
  (exists won, Permutation (combine xs ys) (won ++ filter (fun p => Qle_bool (fst p) (snd p)) (combine xs ys)) /\
     Forall (fun p => snd p < fst p)%Q won /\ b_faster c = length won).

(** Half of the rounds start with A, half with B; one more with A if their number is odd. *)
Definition balanced (order : list (label * label)) (n : nat) : Prop :=
  exists k, Permutation order (repeat (A, B) (n - k) ++ repeat (B, A) k) /\ length order = n /\ (n = k + k \/ n = S (k + k)).

Definition label_of (r : bool * label * job) : label := snd (fst r).
Definition is_measured (r : bool * label * job) : bool := fst (fst r).
Definition job_of (r : bool * label * job) : job := snd r.

(** What a printed report stands for: [n] rounds, of which half start with A, every child having ended well, the figures
    of the warming up not being used; every case reported with the figures of all rounds; and every case there is. *)
Definition report_ok (w : world) (o : options) (s : state) (n : nat) (cs : list case) : Prop :=
  n = rounds o /\ exists order k, balanced order n /\
    map (fun r => (is_measured r, label_of r)) (skipn k (runs s)) = map (pair true) (sides order) /\
    Forall (fun r => is_measured r = false) (firstn k (runs s)) /\
    (forall i r, nth_error (runs s) i = Some r -> bench w i (job_of r) <> None) /\
    Forall (fun c => exists xs ys, measured w s k order A (case_id c) xs /\ measured w s k order B (case_id c) ys /\ says c xs ys) cs /\
    (forall c xs, measured w s k order A c xs -> In c (map case_id cs)).


(** How a side's children are started. *)
Definition started_right (w : world) (o : options) (l : label) (j : job) : Prop :=
  tree_of w o l (where_ j) /\
  (forall p, own_python o l = Some p -> python j = p) /\
  (forall k, name k -> k <> "PYTHONPATH"%string -> k <> "VIRTUAL_ENV"%string ->
     value_for w (env o) (own_env o l) k (get k (environ j))) /\
  (exists rest, get "PYTHONPATH"%string (environ j) = Some (src w (where_ j) ++ rest)%string).


(** A child's result has these cases, with a positive duration each. *)
Definition fine (ids : list string) (d : figures) : Prop := keys d = ids /\ Forall (fun kv => 0 < snd kv)%Q d.


(** An argument of --env. *)
Definition assignment (x : string) : Prop := exists k v, name k /\ x = (k ++ "=" ++ v)%string.

(** Arguments that are accepted. *)
Definition good_args (o : options) : Prop :=
  0 < rounds o /\ (dir_a o = None \/ ref_a o = None) /\ (dir_b o = None \/ ref_b o = None) /\ (force o = true -> shared o = true) /\
  Forall assignment (env o) /\ Forall assignment (env_a o) /\ Forall assignment (env_b o).
