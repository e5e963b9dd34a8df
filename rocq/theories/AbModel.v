(** Comparing two versions: src/ezmsg/util/perf/ab.py ([ezmsg perf ab]).

    Side A and side B are two trees: a directory given, the current tree, or a git worktree made for the purpose.
    After warming up, the benchmark is run as a child process for both sides in every round; the figures of the two
    sides of a round are compared.

    Simplifications: exact rationals for floats; a child process is its result, as a function of how many were
    started before it; hashes of files and the interpreters found in a tree are functions of the tree; the copying
    of hotpath.py into a worktree and the directory of the results (which is always removed) do not fail; the
    cases are listed in the order of the first result instead of sorted; what is printed about the environments
    is left out. *)
From Coq Require Import String Ascii.
From Coq Require Import List Arith ZArith QArith Bool.
From Verif Require Import Dict PerfModel.
Import ListNotations.
Local Open Scope nat_scope.

Inductive label := A | B.
Definition same (l l' : label) : bool := match l, l' with A, A | B, B => true | _, _ => false end.

(** 65-69: before it is shuffled. *)
Definition base_order (rounds : nat) : list (label * label) :=
  firstn rounds (concat (repeat [(A, B); (B, A)] ((rounds + 1) / 2))).

(** value.split("=", 1); [None] without "=". *)
Fixpoint split_eq (s : string) : option (string * string) :=
  match s with
  | EmptyString => None
  | String c r =>
      if Ascii.eqb c "="%char then Some (EmptyString, r)
      else match split_eq r with Some (k, v) => Some (String c k, v) | None => None end
  end.

(** 112-121: [None] is ValueError. *)
Fixpoint parse_env (values : list string) (d : list (string * string)) : option (list (string * string)) :=
  match values with
  | [] => Some d
  | x :: r =>
      match split_eq x with
      | None => None
      | Some (EmptyString, _) => None
      | Some (k, v) => parse_env r (put k v d)
      end
  end.

(** {**d, **d'}, and dict.update. *)
Definition update (d d' : list (string * string)) : list (string * string) :=
  fold_left (fun d kv => put (fst kv) (snd kv) d) d' d.

Inductive tree := Path (p : string) | Work (l : label).
Definition tree_eqb (t t' : tree) : bool :=
  match t, t' with Path p, Path p' => String.eqb p p' | Work l, Work l' => same l l' | _, _ => false end.

(** The result of a child process: the median of each case. *)
Notation figures := (list (string * Q)).

(** What a child is started with: the directory, the interpreter, the environment. *)
Record job := { where_ : tree; python : string; environ : list (string * string) }.

(** What is outside. *)
Record world := {
  root : string;                                  (* git rev-parse --show-toplevel *)
  base_env : list (string * string);              (* os.environ *)
  src : tree -> string;                           (* str(tree / "src") *)
  venv : string -> option string;                 (* _virtual_env_from_python *)
  sys_python : string;
  discover : tree -> option string;               (* discover_tree_python *)
  meta : tree -> nat * nat;                       (* hashes of pyproject.toml and uv.lock *)
  add_ok : label -> bool;                         (* git worktree add *)
  remove_ok : label -> bool;                      (* git worktree remove *)
  probe_ok : label -> bool;                       (* _probe_runtime *)
  shuffle : list (label * label) -> list (label * label);
  bench : nat -> job -> option figures }.         (* [None]: the child fails *)

Record options := {
  ref_a : option string; ref_b : option string;
  dir_a : option string; dir_b : option string;
  python_a : option string; python_b : option string;
  shared : bool;                                  (* env_mode *)
  force : bool;
  env : list string; env_a : list string; env_b : list string;
  rounds : nat; prewarm : nat;
  keep : bool }.                                  (* --keep-worktrees *)

Inductive exc :=
  | BadArgs | BadEnv | GitFailed | NoPython | ProbeFailed | EnvMismatch | BenchFailed | CasesDiffer
  | Unbound       (* UnboundLocalError: paired_runs *)
  | NoPairs       (* IndexError: paired_runs[0] *)
  | NoCase        (* KeyError *)
  | DivZero.

Record state := {
  worktrees : list label;              (* of git *)
  temps : list label;                  (* directories made by mkdtemp *)
  runs : list (bool * label * job) }.  (* children started; [true]: measured *)

Definition fresh : state := {| worktrees := []; temps := []; runs := [] |}.

(** 197-207: run a child. *)
Definition child (w : world) (js : label -> job) (s : state) (m : bool) (l : label) : state * option figures :=
  ({| worktrees := worktrees s; temps := temps s; runs := runs s ++ [(m, l, js l)] |}, bench w (length (runs s)) (js l)).

(** ref.upper() == "CURRENT" *)
Definition upper_char (c : ascii) : ascii :=
  let n := nat_of_ascii c in if (97 <=? n) && (n <=? 122) then ascii_of_nat (n - 32) else c.
Fixpoint upper (s : string) : string := match s with EmptyString => EmptyString | String c r => String (upper_char c) (upper r) end.
Definition is_current (ref : string) : bool := String.eqb (upper ref) "CURRENT".

(** 226-243, up to the yield, and 572-581: the tree ([None]: git failed) and whether there is something to undo. *)
Definition provision (w : world) (dir : option string) (ref : string) (l : label) (s : state) : state * option tree * bool :=
  match dir with
  | Some p => (s, Some (Path p), false)
  | None =>
      if is_current ref then (s, Some (Path (root w)), false)
      else if add_ok w l
      then ({| worktrees := worktrees s ++ [l]; temps := temps s ++ [l]; runs := runs s |}, Some (Work l), true)
      else ({| worktrees := worktrees s; temps := temps s ++ [l]; runs := runs s |}, None, false)
  end.

(** 242-252: the end of the with block.  [return] in [finally] drops the exception. *)
Definition clean_up (w : world) (o : options) (made : bool) (l : label) (s : state) (e : option exc) : state * option exc :=
  if negb made then (s, e)
  else if keep o then (s, None)
  else ({| worktrees := if remove_ok w l then filter (fun x => negb (same x l)) (worktrees s) else worktrees s;
           temps := filter (fun x => negb (same x l)) (temps s); runs := runs s |},
        if remove_ok w l then e else Some GitFailed).

(** 299-314 *)
Definition tree_env (w : world) (t : tree) (python : string) (overrides : list (string * string)) : list (string * string) :=
  let e := update (base_env w) overrides in
  let path := match get "PYTHONPATH"%string e with
              | Some (String c r) => (src w t ++ ":" ++ String c r)%string
              | _ => src w t
              end in
  let e := put "PYTHONPATH"%string path e in
  match venv w python with Some v => put "VIRTUAL_ENV"%string v e | None => e end.

(** d == d' for dicts. *)
Definition dict_eqb (d d' : list (string * string)) : bool :=
  forallb (fun k => eqd (get k d) (get k d')) (keys d ++ keys d').

(** 482-517, 588-594: [None] is ValueError. *)
Definition existing_python (w : world) (t : tree) (explicit : option string) : option string :=
  match explicit with
  | Some p => Some p
  | None => match discover w t with
            | Some p => Some p
            | None => if tree_eqb t (Path (root w)) then Some (sys_python w) else None
            end
  end.
Definition pythons (w : world) (o : options) (ta tb : tree) : option (string * string) :=
  if shared o then
    match python_a o, python_b o with
    | Some p, Some q => if String.eqb p q then Some (p, p) else None
    | Some p, None => Some (p, p)
    | None, Some q => Some (q, q)
    | None, None => Some (sys_python w, sys_python w)
    end
  else match existing_python w ta (python_a o), existing_python w tb (python_b o) with
       | Some p, Some q => Some (p, q)
       | _, _ => None
       end.

(** 646-655 *)
Fixpoint warm (w : world) (js : label -> job) (skip_b : bool) (n : nat) (s : state) : state * option exc :=
  match n with
  | 0 => (s, None)
  | S n =>
      match child w js s false A with
      | (s1, None) => (s1, Some BenchFailed)
      | (s1, Some _) =>
          if skip_b then warm w js skip_b n s1
          else match child w js s1 false B with
               | (s2, None) => (s2, Some BenchFailed)
               | (s2, Some _) => warm w js skip_b n s2
               end
      end
  end.

(** left.keys() == right.keys() *)
Definition same_keys (d d' : figures) : bool :=
  forallb (fun k => mem k (keys d')) (keys d) && forallb (fun k => mem k (keys d)) (keys d').

(** 657-670 *)
Fixpoint measure (w : world) (js : label -> job) (order : list (label * label)) (s : state) (pairs : list (figures * figures))
  : state * list (figures * figures) * option exc :=
  match order with
  | [] => (s, pairs, None)
  | (f, g) :: r =>
      match child w js s true f with
      | (s1, None) => (s1, pairs, Some BenchFailed)
      | (s1, Some x) =>
          match child w js s1 true g with
          | (s2, None) => (s2, pairs, Some BenchFailed)
          | (s2, Some y) =>
              let p := match f with A => (x, y) | B => (y, x) end in
              if same_keys (fst p) (snd p) then measure w js r s2 (pairs ++ [p]) else (s2, pairs, Some CasesDiffer)
          end
      end
  end.

(** 583-670: the state, paired_runs if it has been assigned, and the exception. *)
Definition body (w : world) (o : options) (oa ob : list (string * string)) (ta tb : tree) (s : state)
  : state * option (list (figures * figures)) * option exc :=
  match pythons w o ta tb with
  | None => (s, None, Some NoPython)
  | Some (pa, pb) =>
      if negb (probe_ok w A && probe_ok w B) then (s, None, Some ProbeFailed)
      else if shared o && negb (force o) && negb (eqd (meta w ta) (meta w tb)) then (s, None, Some EnvMismatch)
      else
        let ja := {| where_ := ta; python := pa; environ := tree_env w ta pa oa |} in
        let jb := {| where_ := tb; python := pb; environ := tree_env w tb pb ob |} in
        let js := fun l => match l with A => ja | B => jb end in
        let skip_b := tree_eqb tb ta && dict_eqb (environ jb) (environ ja) in
        match warm w js skip_b (prewarm o) s with
        | (s1, Some e) => (s1, None, Some e)
        | (s1, None) => let '(s2, ps, e) := measure w js (shuffle w (base_order (rounds o))) s1 [] in (s2, Some ps, e)
        end
  end.

(** 42-50 *)
Record case := {
  case_id : string;
  a_median : Q; b_median : Q;
  delta_median : Q; delta_mean : Q;
  pair_count : nat; b_faster : nat }.

Fixpoint traverse {X Y : Type} (f : X -> option Y) (l : list X) : option (list Y) :=
  match l with
  | [] => Some []
  | x :: r => match f x, traverse f r with Some y, Some ys => Some (y :: ys) | _, _ => None end
  end.

Definition delta (p : Q * Q) : Q := ((snd p / fst p - 1) * 100)%Q.

(** 145-160 *)
Definition summarize_case (pairs : list (figures * figures)) (c : string) : case + exc :=
  match traverse (fun p : figures * figures => get c (fst p)) pairs, traverse (fun p : figures * figures => get c (snd p)) pairs with
  | Some xs, Some ys =>
      if existsb (fun a => Qeq_bool a 0) xs then inr DivZero
      else let ds := map delta (combine xs ys) in
        inl {| case_id := c; a_median := median xs; b_median := median ys; delta_median := median ds; delta_mean := mean ds;
               pair_count := length ds; b_faster := length (filter (fun p => negb (Qle_bool (fst p) (snd p))) (combine xs ys)) |}
  | _, _ => inr NoCase
  end.

Fixpoint summarize_cases (pairs : list (figures * figures)) (cs : list string) : list case + exc :=
  match cs with
  | [] => inl []
  | c :: r =>
      match summarize_case pairs c with
      | inr e => inr e
      | inl x => match summarize_cases pairs r with inr e => inr e | inl l => inl (x :: l) end
      end
  end.

(** 453: what is printed for a case. *)
Definition regression (c : case) : bool := negb (Qle_bool (delta_median c) 0).

Inductive result := Raises (e : exc) | Report (rounds_printed : nat) (cases : list case).

(** 132-186, 672-682 *)
Definition summarize (o : options) (pairs : option (list (figures * figures))) : result :=
  match pairs with
  | None => Raises Unbound
  | Some [] => Raises NoPairs
  | Some (((a, _) :: _) as ps) =>
      match summarize_cases ps (keys a) with inr e => Raises e | inl cs => Report (rounds o) cs end
  end.

Definition default_ref (r : option string) (d : string) : string := match r with Some x => x | None => d end.

(** 520-685 *)
Definition perf_ab (w : world) (o : options) : state * result :=
  if (rounds o =? 0)
     || match dir_a o, ref_a o with Some _, Some _ => true | _, _ => false end
     || match dir_b o, ref_b o with Some _, Some _ => true | _, _ => false end
     || (force o && negb (shared o))
  then (fresh, Raises BadArgs)
  else match parse_env (env o) [], parse_env (env_a o) [], parse_env (env_b o) [] with
  | Some e, Some ea, Some eb =>
      match provision w (dir_a o) (default_ref (ref_a o) "dev") A fresh with
      | (s, None, _) => (s, Raises GitFailed)
      | (s, Some ta, made_a) =>
          let '(s, ps, x) :=
            match provision w (dir_b o) (default_ref (ref_b o) "CURRENT") B s with
            | (s, None, _) => (s, None, Some GitFailed)
            | (s, Some tb, made_b) =>
                let '(s, ps, x) := body w o (update e ea) (update e eb) ta tb s in
                let '(s, x) := clean_up w o made_b B s x in (s, ps, x)
            end in
          let '(s, x) := clean_up w o made_a A s x in
          (s, match x with Some x => Raises x | None => summarize o ps end)
      end
  | _, _, _ => (fresh, Raises BadEnv)
  end.
