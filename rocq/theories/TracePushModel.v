(* How a process sends its traced samples to the server, and how the connection is closed:
     processclient.py:161-183   ProcessControlClient.close
     processclient.py:188-224   _write_payload
     processclient.py:226-281   _io_loop
     processclient.py:333-388   _handle_route_request: SET_PROFILING_TRACE, GET_PROFILING_TRACE_BATCH
     processclient.py:441-483   _ensure_trace_push_task, _cancel_trace_push_task, _trace_push_loop
     profiling.py:314-330, 332-374, 376-387  set_trace_control, trace_batch, trace_enabled, expiry
     profiling.py:47-49         the bounded buffer of samples.
   One label = one await-free section of one task.

   Simplifications: a sample is its number in the order of recording; one endpoint, so that a batch is a prefix of its
   buffer (the merging of several endpoints is in ProfilingModel.v), and a control either traces it or not; requests other
   than these two are [Ping]; the lock is taken in any order (asyncio's is fair), and acquiring it is a step of its own even
   when it is free. *)

From Coq Require Import List Arith Bool.
Import ListNotations.

Section TracePush.
Context (cap : nat).       (* TRACE_MAX_SAMPLES *)
Context (limit : nat).     (* max(1, _trace_push_max_samples) *)

(** The push task (459-483). *)
Inductive tpc :=
| TSleep                     (* 462 *)
| TLock (batch : list nat)   (* 201: about to take the lock *)
| TDrain                     (* 205, with the lock *)
| TDone.
Record task := mkTask { tp : tpc; cancelled : bool }.

(** The I/O loop. *)
Inductive iopc :=
| IORead                     (* 234, or in the middle of a request *)
| IOAwait (i : nat)          (* 456-457: await task *)
| IOWrite                    (* 201: about to take the lock *)
| IODrain                    (* 205, with the lock *)
| IOEnded.

(** close(). *)
Inductive cpc := CNo | CAwaitTask (i : nat) | CAwaitIo | CDone.

Inductive who := ATask (i : nat) | TheIo | Another.

Record st := mkSt {
  on : bool;                 (* _default_trace_control.enabled, and with it the flags of the endpoint *)
  expires : option nat;      (* _trace_control_expires_ns *)
  now : nat;
  count : nat;               (* samples recorded so far *)
  pend : list nat;           (* trace_samples *)
  tasks : list task;
  handle : option nat;       (* _trace_push_task *)
  io : iopc;
  io_cancel : bool;          (* CancelledError will be raised in the loop *)
  lock : option who;         (* _write_lock *)
  closing : cpc;
  conn : bool;
  wire : list (list nat);    (* PROCESS_PROFILING_TRACE_UPDATEs written and not read *)
  got : list nat;            (* what the server has read *)
  fetched : list nat         (* what was handed out by GET_PROFILING_TRACE_BATCH *)
}.

Definition init : st :=
  mkSt false None 0 0 [] [] None IORead false None CNo true [] [] [].

Definition set_trace (s : st) (o : bool) (e : option nat) (p : list nat) : st :=
  mkSt o e (now s) (count s) p (tasks s) (handle s) (io s) (io_cancel s) (lock s) (closing s) (conn s) (wire s) (got s) (fetched s).
Definition set_tasks (s : st) (l : list task) (h : option nat) : st :=
  mkSt (on s) (expires s) (now s) (count s) (pend s) l h (io s) (io_cancel s) (lock s) (closing s) (conn s) (wire s) (got s) (fetched s).
Definition set_io (s : st) (p : iopc) (c : bool) : st :=
  mkSt (on s) (expires s) (now s) (count s) (pend s) (tasks s) (handle s) p c (lock s) (closing s) (conn s) (wire s) (got s) (fetched s).
Definition set_lock (s : st) (k : option who) : st :=
  mkSt (on s) (expires s) (now s) (count s) (pend s) (tasks s) (handle s) (io s) (io_cancel s) k (closing s) (conn s) (wire s) (got s) (fetched s).
Definition set_closing (s : st) (c : cpc) : st :=
  mkSt (on s) (expires s) (now s) (count s) (pend s) (tasks s) (handle s) (io s) (io_cancel s) (lock s) c (conn s) (wire s) (got s) (fetched s).
Definition set_net (s : st) (c : bool) (w : list (list nat)) (g f : list nat) : st :=
  mkSt (on s) (expires s) (now s) (count s) (pend s) (tasks s) (handle s) (io s) (io_cancel s) (lock s) (closing s) c w g f.

Fixpoint set_nth {A} (i : nat) (x : A) (l : list A) : list A :=
  match l, i with
  | [], _ => []
  | _ :: l, 0 => x :: l
  | y :: l, S i => y :: set_nth i x l
  end.

(** profiling.py:314-330 *)
Definition set_trace_control (s : st) (b : bool) (ttl : option nat) : st :=
  set_trace s b (if b then match ttl with Some t => Some (now s + t) | None => None end else None) [].

(** profiling.py:380-387 *)
Definition expire (s : st) : st :=
  match expires s with
  | Some t => if now s <? t then s else set_trace_control s false None
  | None => s
  end.

(** deque(maxlen=cap).append *)
Definition append_bounded (l : list nat) (x : nat) : list nat := skipn (length (l ++ [x]) - cap) (l ++ [x]).

(** profiling.py:51-75: an endpoint that is traced records a sample. *)
Definition record (s : st) : st :=
  mkSt (on s) (expires s) (now s) (S (count s)) (if on s then append_bounded (pend s) (count s) else pend s)
       (tasks s) (handle s) (io s) (io_cancel s) (lock s) (closing s) (conn s) (wire s) (got s) (fetched s).

(** 441-448 *)
Definition ensure (s : st) : st :=
  let live := match handle s with
              | Some i => match nth_error (tasks s) i with Some x => match tp x with TDone => false | _ => true end | None => false end
              | None => false
              end in
  if live then s else set_tasks s (tasks s ++ [mkTask TSleep false]) (Some (length (tasks s))).

Definition cancel_task (s : st) (i : nat) : list task :=
  match nth_error (tasks s) i with Some x => set_nth i (mkTask (tp x) true) (tasks s) | None => tasks s end.

(** 333-368, 441-457 *)
Definition control (s : st) (b : bool) (ttl : option nat) : st :=
  let s := set_trace_control s b ttl in
  if b then set_io (ensure s) IOWrite (io_cancel s)
  else match handle s with
       | Some i => set_io (set_tasks s (cancel_task s i) None) (IOAwait i) (io_cancel s)
       | None => set_io s IOWrite (io_cancel s)
       end.

(** 370-388; profiling.py:332-374 *)
Definition fetch (s : st) (n : nat) : st :=
  let s := expire s in
  let n := Nat.max 1 n in
  let s := set_net s (conn s) (wire s) (got s) (fetched s ++ firstn n (pend s)) in
  set_io (set_trace s (on s) (expires s) (skipn n (pend s))) IOWrite (io_cancel s).

(** 481-483: the task ends by itself. *)
Definition task_ends (s : st) (i : nat) : st :=
  set_tasks s (set_nth i (mkTask TDone false) (tasks s))
    (match handle s with Some j => if j =? i then None else Some j | None => None end).

(** 473-474 *)
Definition goes_on (s : st) (i : nat) : st :=
  let s := expire s in
  if on s then set_tasks s (set_nth i (mkTask TSleep false) (tasks s)) (handle s) else task_ends s i.

(** 463-471; once close() is over, _write_payload raises (197-198, 479-480). *)
Definition wake (s : st) (i : nat) : st :=
  let s := expire s in
  let batch := firstn limit (pend s) in
  let s := set_trace s (on s) (expires s) (skipn limit (pend s)) in
  match batch with
  | [] => goes_on s i
  | _ => match closing s with
         | CDone => task_ends s i
         | _ => set_tasks s (set_nth i (mkTask (TLock batch) false) (tasks s)) (handle s)
         end
  end.

(** 173-178: the I/O task is cancelled.  If it is suspended in [await task] (456-457), the CancelledError is raised there and
    suppressed: Task.cancel() passes the request on to the task awaited, if that is not over; if it is, CancelledError is
    thrown in at the same place. *)
Definition cancel_io (s : st) : st :=
  match io s with
  | IOAwait i => set_closing (set_tasks s (cancel_task s i) (handle s)) CAwaitIo
  | IOEnded => set_closing s CAwaitIo
  | p => set_closing (set_io s p true) CAwaitIo
  end.

(** 161-171 *)
Definition close (s : st) : st :=
  match handle s with
  | Some i => set_closing (set_tasks s (cancel_task s i) None) (CAwaitTask i)
  | None => cancel_io s
  end.

Inductive label :=
| Record | Advance
| Control (b : bool) (ttl : option nat) | Fetch (n : nat) | Ping   (* the I/O loop reads a request *)
| Wake (i : nat) | Write (i : nat) | Drained (i : nat)            (* the push task *)
| Die (i : nat)                                                   (* CancelledError is raised in it *)
| IoResume | IoWrite | IoDrained | IoCancelled | IoEof            (* the I/O loop *)
| OtherWrite | OtherDrained                                       (* another command on the connection *)
| Close | CloseResume | CloseEnd
| Lost                                                            (* the connection is lost *)
| Arrive.                                                         (* the server reads a batch *)

Definition task_at (s : st) (i : nat) : option tpc :=
  match nth_error (tasks s) i with Some x => if cancelled x then None else Some (tp x) | None => None end.

Definition release (s : st) (w : who) : option who :=
  match lock s, w with
  | Some (ATask i), ATask j => if i =? j then None else lock s
  | Some TheIo, TheIo => None
  | k, _ => k
  end.

Definition step (s : st) (a : label) : option st :=
  match a with
  | Record => Some (record s)
  | Advance => Some (mkSt (on s) (expires s) (S (now s)) (count s) (pend s) (tasks s) (handle s) (io s) (io_cancel s) (lock s) (closing s)
                          (conn s) (wire s) (got s) (fetched s))
  | Control b ttl =>
      match io s with IORead => if negb (io_cancel s) && conn s then Some (control s b ttl) else None | _ => None end
  | Fetch n =>
      match io s with IORead => if negb (io_cancel s) && conn s then Some (fetch s n) else None | _ => None end
  | Ping =>
      match io s with IORead => if negb (io_cancel s) && conn s then Some (set_io s IOWrite false) else None | _ => None end
  | Wake i => match task_at s i with Some TSleep => Some (wake s i) | _ => None end
  | Write i =>
      match task_at s i, lock s with
      | Some (TLock batch), None =>
          if conn s then Some (set_lock (set_net (set_tasks s (set_nth i (mkTask TDrain false) (tasks s)) (handle s))
                                                 true (wire s ++ [batch]) (got s) (fetched s)) (Some (ATask i)))
          else Some (task_ends s i)                                     (* 477-478 *)
      | _, _ => None
      end
  | Drained i =>
      match task_at s i with
      | Some TDrain => let s := set_lock s (release s (ATask i)) in
                       Some (if conn s then goes_on s i else task_ends s i)
      | _ => None
      end
  | Die i =>
      match nth_error (tasks s) i with
      | Some (mkTask p true) =>
          match p with
          | TDone => None
          | _ => Some (set_lock (set_tasks s (set_nth i (mkTask TDone true) (tasks s)) (handle s)) (release s (ATask i)))
          end
      | _ => None
      end
  | IoResume =>
      match io s with
      | IOAwait i => match nth_error (tasks s) i with
                     | Some x => match tp x with TDone => Some (set_io s IOWrite (io_cancel s)) | _ => None end
                     | None => None
                     end
      | _ => None
      end
  | IoWrite =>
      match io s, lock s with
      | IOWrite, None => if io_cancel s then None
                         else Some (if conn s then set_lock (set_io s IODrain false) (Some TheIo) else set_io s IOEnded false)
      | _, _ => None
      end
  | IoDrained =>
      match io s with
      | IODrain => if io_cancel s then None
                   else Some (set_lock (set_io s (if conn s then IORead else IOEnded) false) (release s TheIo))
      | _ => None
      end
  | IoCancelled =>
      if io_cancel s then Some (set_lock (set_io s IOEnded false) (release s TheIo)) else None
  | IoEof =>
      match io s with IORead => if conn s || io_cancel s then None else Some (set_io s IOEnded false) | _ => None end
  | OtherWrite => match lock s with None => Some (set_lock s (Some Another)) | _ => None end
  | OtherDrained => match lock s with Some Another => Some (set_lock s None) | _ => None end
  | Close => match closing s with CNo => Some (close s) | _ => None end
  | CloseResume =>
      match closing s with
      | CAwaitTask i => match nth_error (tasks s) i with
                        | Some x => match tp x with TDone => Some (cancel_io s) | _ => None end
                        | None => None
                        end
      | _ => None
      end
  | CloseEnd =>
      match closing s, io s with
      | CAwaitIo, IOEnded => Some (set_closing s CDone)
      | _, _ => None
      end
  | Lost => Some (set_net s false [] (got s) (fetched s))
  | Arrive =>
      match wire s with
      | b :: w => Some (set_net s (conn s) w (got s ++ b) (fetched s))
      | [] => None
      end
  end.

Fixpoint run (s : st) (l : list label) : option st :=
  match l with
  | [] => Some s
  | a :: l => match step s a with Some s => run s l | None => None end
  end.

End TracePush.
