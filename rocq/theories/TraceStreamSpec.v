(* Specification of profiling trace streams (C42), over histories listed newest first. *)

From Coq Require Import List Arith Bool.
From Verif Require Import Dict TraceStreamModel.
Import ListNotations.

Section Spec.
Context {A : Type}.

Definition after (limit : nat) (h : list (sop A)) : server A := srun limit (rev h).

(** All samples a process has pushed, oldest first. *)
Fixpoint sent (p : nat) (h : list (sop A)) : list A :=
  match h with
  | [] => []
  | Update q xs :: h => if q =? p then sent p h ++ xs else sent p h
  | _ :: h => sent p h
  end.

(** Is the process connected? *)
Fixpoint connected (p : nat) (h : list (sop A)) : bool :=
  match h with
  | [] => false
  | Connect q :: h => (q =? p) || connected p h
  | Leave q :: h => negb (q =? p) && connected p h
  | _ :: h => connected p h
  end.

(** What the subscriber asked for. *)
Fixpoint asked (r : nat) (h : list (sop A)) : option stream_control :=
  match h with
  | [] => None
  | Subscribe q c :: h => if q =? r then Some c else asked r h
  | _ :: h => asked r h
  end.

(** Ids are handed out once, and only connected processes push samples. *)
Fixpoint lawful (h : list (sop A)) : Prop :=
  match h with
  | [] => True
  | o :: h =>
      lawful h /\
      match o with
      | Connect p => ~ In (Connect p) h
      | Update p _ | Leave p => connected p h = true
      | Subscribe r _ => asked r h = None
      | Poll r => asked r h <> None
      end
  end.

(** All samples of a process a subscriber has been sent, in order. *)
Definition batch_of (p : nat) (b : list (nat * list A)) : list A := getd p [] b.

Definition received (p : nat) (r : nat) (s : server A) : list A :=
  match get r (sv_readers s) with
  | Some rd => flat_map (batch_of p) (rd_out rd)
  | None => []
  end.

(** A control lets a process through. *)
Definition lets_through (c : stream_control) (p : nat) : Prop :=
  match sc_processes c with Some l => In p l | None => True end.

(** The elements of a list at the given positions (counted from 1). *)
Definition at_positions (l : list A) (ns : list nat) : list A :=
  flat_map (fun n => match n with 0 => [] | S i => match nth_error l i with Some x => [x] | None => [] end end) ns.

Fixpoint increasing (ns : list nat) : Prop :=
  match ns with
  | [] => True
  | n :: r => (forall m, In m r -> n < m) /\ increasing r
  end.

(** The number of the last sample delivered or passed over, by the book: at a poll the
    subscriber skips what is no longer retained, then gets up to max_samples of what is left.  *)
Fixpoint place (limit : nat) (p r : nat) (h : list (sop A)) : nat :=
  match h with
  | [] => 0
  | Subscribe q _ :: h => if q =? r then 0 else place limit p r h
  | Poll q :: h =>
      match asked r h with
      | Some c =>
          if (q =? r) && connected p h && match sc_processes c with Some l => mem p l | None => true end then
            let from := Nat.max (place limit p r h) (length (sent p h) - limit) in
            from + Nat.min (Nat.max 1 (sc_max c)) (length (sent p h) - from)
          else place limit p r h
      | None => place limit p r h
      end
  | _ :: h => place limit p r h
  end.

End Spec.
