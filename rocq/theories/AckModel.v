(* Model of the acknowledgements of process control commands:
     processclient.py:188-224  ProcessControlClient._write_payload,
     processclient.py:238-241  _io_loop: COMPLETE and ERROR go to _ack_queue,
     graphserver.py:651-748    _handle_process answers each command with one byte,
   used by register, update_ownership and report_settings_update.

   Commands are numbered in the order in which they are written (the write lock is held
   until the command is out, and the wait on the queue starts right after);
   [verdict n] is the server's answer to command [n]: true for COMPLETE, false for ERROR.

   Simplification: the connection stays up. *)

From Coq Require Import List Arith Bool.
Import ListNotations.

(** What the caller of a command gets: it returns, it raises "failed", or it
    raises "timed out". *)
Inductive outcome := Completed | CommandFailed | TimedOut.

Record acks := mkAcks {
  a_next : nat;                        (* the number of the next command *)
  a_server : list nat;                 (* written, not answered yet *)
  a_queue : list bool;                 (* _ack_queue *)
  a_waiting : list nat;                (* waiting on _ack_queue.get(), in order *)
  a_outcomes : list (nat * outcome)
}.

Definition no_acks : acks := mkAcks 0 [] [] [] [].

Inductive aevent :=
| Send               (* 202-206: a command is written; its caller waits *)
| Answer             (* the server handles the next command and answers; the answer is queued *)
| Wake               (* the first waiting caller takes the first answer *)
| Expire (n : nat).  (* wait_for's 5 seconds are over for command [n] *)

Definition astep (verdict : nat -> bool) (s : acks) (e : aevent) : option acks :=
  match e with
  | Send => Some (mkAcks (S (a_next s)) (a_server s ++ [a_next s]) (a_queue s) (a_waiting s ++ [a_next s]) (a_outcomes s))
  | Answer =>
      match a_server s with
      | n :: r => Some (mkAcks (a_next s) r (a_queue s ++ [verdict n]) (a_waiting s) (a_outcomes s))
      | [] => None
      end
  | Wake =>
      match a_waiting s, a_queue s with
      | n :: w, b :: q =>
          Some (mkAcks (a_next s) (a_server s) q w
                       (a_outcomes s ++ [(n, if b then Completed else CommandFailed)]))
      | _, _ => None
      end
  | Expire n =>
      if existsb (Nat.eqb n) (a_waiting s)
      then Some (mkAcks (a_next s) (a_server s) (a_queue s)
                        (filter (fun m => negb (Nat.eqb n m)) (a_waiting s)) (a_outcomes s ++ [(n, TimedOut)]))
      else None
  end.

Inductive arun (verdict : nat -> bool) : acks -> list aevent -> Prop :=
| arun_start : arun verdict no_acks []
| arun_step s t e s' : arun verdict s t -> astep verdict s e = Some s' -> arun verdict s' (t ++ [e]).
