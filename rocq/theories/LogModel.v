(* Model of src/ezmsg/util/messagelogger.py, MessageLogger (47-196), of message_log
   (src/ezmsg/util/messagecodec.py:196-217) and of src/ezmsg/util/messagereplay.py, MessageReplay
   (68-208).

   A log file is the list of its lines.  Writing and reading a line (log_object, json.loads with
   MessageDecoder) are given by two functions; every theorem that needs them to fit says so.  Paths
   are compared as Python compares them; that two paths may lead to one file is left out.  Files are
   flushed with every write, so their contents are on disk at once.  A file does not change while it
   is replayed. *)

From Coq Require Import List Bool Arith.
From Verif Require Import Dict.
Import ListNotations.

Section Log.
Context {P M L : Type} `{Dec P}.
Variables (dump : M -> L)            (* log_object, messagelogger.py:15-24, with the time left out *)
          (load : L -> option M)     (* the "obj" of a line; None: JSONDecodeError *)
          (log_start : M)            (* LogStart() *)
          (is_start : M -> bool).    (* isinstance(obj, LogStart) *)

(** ** The logger *)

(** 42-44, and the disk. *)
Record logger := Logger {
  output_files : list P;
  write_buffer : list L;
  disk : list (P * list L);
  stopped : bool                     (* shutdown has run *)
}.

Definition new_logger (d : list (P * list L)) : logger := Logger [] [] d false.

Inductive log_event :=
| Start (p : P) | Stop (p : P) | Message (m : M)
| Write             (* a round of buffered_write, 174-180 *)
| Shutdown.

(** What is published: 148-149, 155-156, 170. *)
Inductive log_output := Started (p : P) | Stopped (p : P) | Passed (m : M).

(** 84-107 *)
Definition open_file (p : P) (s : logger) : logger * bool :=
  if mem p (output_files s) then (s, false)
  else (Logger (output_files s ++ [p]) (write_buffer s) (put p [dump log_start] (disk s)) (stopped s), true).

(** 109-126 *)
Definition close_file (p : P) (s : logger) : logger * bool :=
  if mem p (output_files s) then (Logger (sdel p (output_files s)) (write_buffer s) (disk s) (stopped s), true)
  else (s, false).

(** writelines to every open file. *)
Definition write_all (ls : list L) (s : logger) : logger :=
  Logger (output_files s) (write_buffer s)
         (fold_left (fun d p => put p (getd p [] d ++ ls) d) (output_files s) (disk s)) (stopped s).

Definition clear_buffer (s : logger) : logger := Logger (output_files s) [] (disk s) (stopped s).

(** 142-196.  [immediate]: write_period <= 0.  None: the event cannot happen. *)
Definition log_step (immediate : bool) (s : logger) (e : log_event) : option (logger * list log_output) :=
  if stopped s then None else
  match e with
  | Start p => let (s', ok) := open_file p s in Some (s', if ok then [Started p] else [])
  | Stop p => let (s', ok) := close_file p s in Some (s', if ok then [Stopped p] else [])
  | Message m =>
      Some (if immediate then write_all [dump m] s
            else Logger (output_files s) (write_buffer s ++ [dump m]) (disk s) (stopped s), [Passed m])
  | Write => if immediate then None else Some (clear_buffer (write_all (write_buffer s) s), [])
  | Shutdown =>
      (* 182-196 *)
      let s1 := match write_buffer s with [] => s | b => clear_buffer (write_all b s) end in
      Some (Logger [] (write_buffer s1) (disk s1) true, [])
  end.

(** Histories, newest event first; d is the disk at the start. *)
Inductive log_after (immediate : bool) (d : list (P * list L)) : list log_event -> logger -> Prop :=
| log_after_start : log_after immediate d [] (new_logger d)
| log_after_event h s e s' o : log_after immediate d h s -> log_step immediate s e = Some (s', o) ->
    log_after immediate d (e :: h) s'.

(** ** Reading a log *)

(** messagecodec.py:211-217: message_log; None: a line cannot be read. *)
Fixpoint message_log (ls : list L) : option (list M) :=
  match ls with
  | [] => Some []
  | l :: ls =>
      match load l with
      | None => None
      | Some m => option_map (fun r => if is_start m then r else m :: r) (message_log ls)
      end
  end.

(** ** Replaying *)

(** Where replay() is suspended. *)
Inductive phase :=
| Idle                                   (* 135: waiting for a file *)
| Announced (f : list L)                 (* 142: the status of the file has been published *)
| AtLine (f rest : list L) (i pub : nat) (* 161: about to go on with a line *)
| Paused (f rest : list L) (i pub : nat) (* 165 *)
| Woken (f rest : list L) (i pub : nat)  (* 165: running has been set since *)
| Sending (f : list L) (l : L) (rest : list L) (i pub : nat)  (* 172: its status has been published *)
| Ending (f : list L) (i pub : nat)      (* the loop has ended *)
| Totalling (pub : nat).                 (* 207: the last status has been published *)

(** 62-65; a file is its lines. *)
Record replayer := Replayer { replay_files : list (list L); running : bool; stop : bool; at_ : phase }.

Inductive replay_output :=
| Status (idx total : nat) (done : bool)
| Msg (m : M)
| Total (n : nat).

Inductive replay_event :=
| QueueFile (f : list L)      (* 110-113 *)
| SetPaused (b : bool)        (* 115-120 *)
| DoStop (clear_queue : bool) (* 122-127 *)
| Tick.                       (* replay() goes on to its next yield, or to the next line *)

(** 101-107 *)
Definition new_replayer (f : option (list L)) : replayer :=
  Replayer (match f with Some f => [f] | None => [] end) true false Idle.

(** The loop goes on with a line, 167-172. *)
Definition go_on (s : replayer) (f rest : list L) (i pub : nat) : replayer * list replay_output :=
  match rest with
  | [] => (Replayer (replay_files s) (running s) (stop s) (Ending f i pub), [])
  | l :: rest =>
      if stop s then (Replayer (replay_files s) (running s) false (Ending f i pub), [])
      else (Replayer (replay_files s) (running s) (stop s) (Sending f l rest i pub), [Status (i + 1) (length f) false])
  end.

(** 133-208; None: it has to wait.  The sleeps are left out: they only delay. *)
Definition tick (s : replayer) : option (replayer * list replay_output) :=
  match at_ s with
  | Idle =>
      match replay_files s with
      | [] => None
      | f :: fs => Some (Replayer fs (running s) (stop s) (Announced f), [Status 0 (length f) false])
      end
  | Announced f => Some (Replayer (replay_files s) (running s) false (AtLine f f 0 0), [])
  | AtLine f rest i pub =>
      match rest with
      | [] => Some (Replayer (replay_files s) (running s) (stop s) (Ending f i pub), [])
      | _ => if running s then Some (go_on s f rest i pub)
             else Some (Replayer (replay_files s) (running s) (stop s) (Paused f rest i pub), [])
      end
  | Paused _ _ _ _ => None
  | Woken f rest i pub => Some (go_on s f rest i pub)
  | Sending f l rest i pub =>
      match load l with
      | None => Some (Replayer (replay_files s) (running s) (stop s) (AtLine f rest (i + 1) pub), [])
      | Some m =>
          if is_start m then Some (Replayer (replay_files s) (running s) (stop s) (AtLine f rest (i + 1) pub), [])
          else Some (Replayer (replay_files s) (running s) (stop s) (AtLine f rest (i + 1) (pub + 1)), [Msg m])
      end
  | Ending f i pub => Some (Replayer (replay_files s) (running s) (stop s) (Totalling pub), [Status i (length f) true])
  | Totalling pub => Some (Replayer (replay_files s) (running s) (stop s) Idle, [Total pub])
  end.

Definition replay_step (s : replayer) (e : replay_event) : option (replayer * list replay_output) :=
  match e with
  | QueueFile f => Some (Replayer (replay_files s ++ [f]) (running s) (stop s) (at_ s), [])
  | SetPaused true => Some (Replayer (replay_files s) false (stop s) (at_ s), [])
  | SetPaused false =>
      Some (Replayer (replay_files s) true (stop s)
                     (match at_ s with Paused f rest i pub => Woken f rest i pub | p => p end), [])
  | DoStop clear => Some (Replayer (if clear then [] else replay_files s) (running s) true (at_ s), [])
  | Tick => tick s
  end.

(** Histories, newest event first, with what has been published, newest first. *)
Inductive replay_after (f0 : option (list L)) : list replay_event -> replayer -> list replay_output -> Prop :=
| replay_after_start : replay_after f0 [] (new_replayer f0) []
| replay_after_event h s out e s' o : replay_after f0 h s out -> replay_step s e = Some (s', o) ->
    replay_after f0 (e :: h) s' (rev o ++ out).
End Log.
Arguments log_event : clear implicits.
Arguments logger : clear implicits.
Arguments replayer : clear implicits.
Arguments replay_event : clear implicits.
Arguments replay_output : clear implicits.
