(** A subscriber's blocking receive in a SyncContext, with and without a time-out: src/ezmsg/core/sync.py
    [_future_result] (20-25) and [SyncSubscriber.recv] (96-98), over Subscriber.recv (subclient.py 271-284).

    Two threads.  The calling thread hands a coroutine to the event loop (run_coroutine_threadsafe) and waits
    for its future; the loop thread executes what it was handed in order of handing over, and runs the
    receiving task when it is ready.  Subscriber.recv takes a notification, copies the message and releases it
    without suspending in between, so a task that runs with a notification in the queue completes.

    [_SyncZeroCopy.__enter__] (72-75) takes a message in the same way.

    Simplifications: one thread calls recv (one call after another); a message is always in the cache and its
    publisher known (C76 has those cases); the loop is not stopped. *)
From Coq Require Import List Arith Bool.
Import ListNotations.

(** A message, by whatever names it. *)
Notation note := nat.

(** The task of one call in the loop thread. *)
Inductive task := NotYet | Ready | Took (m : note) | TCancelled.
(** Its concurrent.futures.Future. *)
Inductive future := FPending | FResult (m : note) | FCancelled.
(** What the calling thread does. *)
Inductive caller := Idle | Waits (lim : bool) | GivingUp.
(** What the loop has been handed (call_soon_threadsafe): create the task; cancel the task. *)
Inductive job := Start (j : nat) | Stop (j : nat).

Record state := {
  queue : list note;
  jobs : list job;
  task_of : nat -> task;
  future_of : nat -> future;
  thread : caller;
  outcomes : list (option note);       (* of the calls that are over; None: TimeoutError *)
  takes : list (nat * note) }.         (* which call's task took which message, in order *)

Inductive event :=
  | Arrive (m : note)
  | Recv (lim : bool)      (* recv(timeout) *)
  | Loop                   (* the loop executes what it was handed first *)
  | Run (j : nat)          (* the task of the j-th call runs *)
  | Deliver (j : nat)      (* its result is passed to the future (asyncio's _chain_future) *)
  | TimeOut                (* future.result(timeout) raises *)
  | GiveUp                 (* future.cancel(); raise TimeoutError *)
  | Return.

Definition upd {A : Type} (f : nat -> A) (i : nat) (x : A) : nat -> A := fun j => if j =? i then x else f j.

(** The call in progress is the one after those that are over. *)
Definition current (s : state) : nat := length (outcomes s).

Definition step (s : state) (e : event) : option state :=
  match e with
  | Arrive m =>
      Some {| queue := queue s ++ [m]; jobs := jobs s; task_of := task_of s; future_of := future_of s;
              thread := thread s; outcomes := outcomes s; takes := takes s |}
  (* sync.py 97 *)
  | Recv lim =>
      match thread s with
      | Idle => Some {| queue := queue s; jobs := jobs s ++ [Start (current s)]; task_of := task_of s; future_of := future_of s;
                        thread := Waits lim; outcomes := outcomes s; takes := takes s |}
      | _ => None
      end
  | Loop =>
      match jobs s with
      | [] => None
      | Start j :: r => Some {| queue := queue s; jobs := r; task_of := upd (task_of s) j Ready; future_of := future_of s;
                                thread := thread s; outcomes := outcomes s; takes := takes s |}
      | Stop j :: r =>
          Some {| queue := queue s; jobs := r;
                  task_of := match task_of s j with Ready => upd (task_of s) j TCancelled | _ => task_of s end;
                  future_of := future_of s; thread := thread s; outcomes := outcomes s; takes := takes s |}
      end
  (* subclient.py 280-284 *)
  | Run j =>
      match task_of s j, queue s with
      | Ready, m :: q => Some {| queue := q; jobs := jobs s; task_of := upd (task_of s) j (Took m); future_of := future_of s;
                                 thread := thread s; outcomes := outcomes s; takes := takes s ++ [(j, m)] |}
      | _, _ => None
      end
  | Deliver j =>
      match task_of s j, future_of s j with
      | Took m, FPending => Some {| queue := queue s; jobs := jobs s; task_of := task_of s; future_of := upd (future_of s) j (FResult m);
                                    thread := thread s; outcomes := outcomes s; takes := takes s |}
      | _, _ => None
      end
  (* sync.py 22 *)
  | TimeOut =>
      match thread s, future_of s (current s) with
      | Waits true, FPending => Some {| queue := queue s; jobs := jobs s; task_of := task_of s; future_of := future_of s;
                                        thread := GivingUp; outcomes := outcomes s; takes := takes s |}
      | _, _ => None
      end
  (* sync.py 24-25; cancelling a future that has a result does nothing *)
  | GiveUp =>
      match thread s with
      | GivingUp =>
          match future_of s (current s) with
          | FPending => Some {| queue := queue s; jobs := jobs s ++ [Stop (current s)]; task_of := task_of s;
                                future_of := upd (future_of s) (current s) FCancelled;
                                thread := Idle; outcomes := outcomes s ++ [None]; takes := takes s |}
          | _ => Some {| queue := queue s; jobs := jobs s; task_of := task_of s; future_of := future_of s;
                         thread := Idle; outcomes := outcomes s ++ [None]; takes := takes s |}
          end
      | _ => None
      end
  (* sync.py 22 *)
  | Return =>
      match thread s, future_of s (current s) with
      | Waits _, FResult m => Some {| queue := queue s; jobs := jobs s; task_of := task_of s; future_of := future_of s;
                                      thread := Idle; outcomes := outcomes s ++ [Some m]; takes := takes s |}
      | _, _ => None
      end
  end.

Fixpoint steps (s : state) (es : list event) : option state :=
  match es with
  | [] => Some s
  | e :: es' => match step s e with Some s' => steps s' es' | None => None end
  end.

Definition start : state :=
  {| queue := []; jobs := []; task_of := fun _ => NotYet; future_of := fun _ => FPending; thread := Idle; outcomes := []; takes := [] |}.
