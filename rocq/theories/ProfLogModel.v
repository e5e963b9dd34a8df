(* Model of the log file that the profiling decorators write to:
     util/profiler.py:28-74  _setup_logger(append=True), which runs when the module is imported,
   by any number of processes that share the file (the file's name comes from the environment
   or is "ezprofiler.log": profiler.py:14-25).

   A process goes through _setup_logger in steps, between which other processes run; each step
   is one call of the operating system.  A file that is removed lives on for those who have it
   open (POSIX).  The logger appends whole lines (O_APPEND, flushed after each line).

   Simplifications: versions of ezmsg are numbers, and versions differ if their header lines
   do; EZMSG_LOGLEVEL is DEBUG or something above; creating the directory, rights and the
   formatting of the lines are not modelled. *)

From Coq Require Import List Arith Bool.
Import ListNotations.

(** A line of the file: the header of a version, a sample (who and which), or some other line that is not blank. *)
Inductive line := Head (v : nat) | Sample (p k : nat) | Foreign.

(** Where a process is. *)
Inductive stage :=
| Checking                        (* 33: does the file exist? *)
| Reading                         (* 35-36: open it and read the first line *)
| Unlinking                       (* 46: the header is another one *)
| Opening (hdr : bool)            (* 58: FileHandler(logpath); [hdr] is write_header *)
| Heading (hdr : bool) (f : nat)  (* 65-66: the header *)
| Running (f : nat)
| Crashed.                        (* FileNotFoundError while importing the module *)

Record proc := mkProc { ver : nat; dbg : bool; at_ : stage }.

Record st := mkSt {
  path : option nat;              (* the file of that name *)
  files : list (list line);
  procs : list proc
}.

(** The file as it was found: none, or one with some lines. *)
Definition init (old : option (list line)) : st :=
  match old with None => mkSt None [] [] | Some c => mkSt (Some 0) [c] [] end.

Inductive event :=
| Launch (v : nat) (d : bool)     (* a process starts to import the module *)
| Go (p : nat)                    (* its next step *)
| Log (p k : nat).                (* it logs a sample (profiler.py:120-131, 166-177) *)

Definition file (s : st) (f : nat) : list line := nth f (files s) [].

Fixpoint set_nth {A} (i : nat) (x : A) (l : list A) : list A :=
  match l, i with
  | [], _ => []
  | _ :: r, 0 => x :: r
  | y :: r, S j => y :: set_nth j x r
  end.

Definition append (s : st) (f : nat) (x : line) : st := mkSt (path s) (set_nth f (file s f ++ [x]) (files s)) (procs s).
Definition goto (s : st) (p : nat) (x : proc) (g : stage) : st := mkSt (path s) (files s) (set_nth p (mkProc (ver x) (dbg x) g) (procs s)).

(** profiler.py:36-46 — what the first line says. *)
Definition first_line (c : list line) (v : nat) : stage :=
  match c with
  | [] => Opening true                                   (* 37: empty *)
  | Head w :: _ => if w =? v then Opening false else Unlinking
  | _ :: _ => Unlinking
  end.

Definition go (s : st) (p : nat) (x : proc) : option st :=
  match at_ x with
  | Checking => Some (goto s p x (match path s with Some _ => Reading | None => Opening true end))
  | Reading => Some (goto s p x (match path s with Some f => first_line (file s f) (ver x) | None => Crashed end))
  | Unlinking =>
      match path s with
      | Some _ => Some (goto (mkSt None (files s) (procs s)) p x (Opening true))
      | None => Some (goto s p x Crashed)
      end
  | Opening h =>
      match path s with
      | Some f => Some (goto s p x (Heading h f))
      | None => Some (goto (mkSt (Some (length (files s))) (files s ++ [[]]) (procs s)) p x (Heading h (length (files s))))
      end
  | Heading h f => Some (goto (if h && dbg x then append s f (Head (ver x)) else s) p x (Running f))
  | Running _ | Crashed => None
  end.

Definition step (s : st) (e : event) : option st :=
  match e with
  | Launch v d => Some (mkSt (path s) (files s) (procs s ++ [mkProc v d Checking]))
  | Go p => match nth_error (procs s) p with Some x => go s p x | None => None end
  | Log p k =>
      match nth_error (procs s) p with
      | Some x => match at_ x with
                  | Running f => if dbg x then Some (append s f (Sample p k)) else None
                  | _ => None
                  end
      | None => None
      end
  end.

Fixpoint run (s : st) (l : list event) : option st :=
  match l with
  | [] => Some s
  | e :: r => match step s e with Some s' => run s' r | None => None end
  end.
