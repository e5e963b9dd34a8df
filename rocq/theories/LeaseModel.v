(** A message received in a SyncContext without copying it: src/ezmsg/core/sync.py [_SyncZeroCopy] (60-82) and
    [SyncSubscriber.recv_zero_copy] (100-102), over Subscriber.recv_zero_copy (subclient.py 286-324).

    [with sub.recv_zero_copy(timeout) as m: ...] hands two coroutines to the event loop, one when the block is
    entered and one when it is left, and waits for each with the same time-out.  The first runs the generator
    of recv_zero_copy to its yield: the message is taken from the queue and held in the cache.  The second runs
    it to its end, which releases the message (whether the block raised or not).  A generator that nobody
    refers to any more is closed by the loop (asyncio's asyncgen hooks), which releases the message as well.

    As in RecvModel the loop thread executes what it was handed in order of handing over.  Neither coroutine
    suspends other than to wait for a message, so a task that runs completes.

    Simplifications: one thread uses the subscriber, one block after another (blocks are numbered); a message
    is always in the cache and its publisher known; the loop is not stopped; closing a generator is one step
    instead of a task; collecting the same generator twice does nothing. *)
From Coq Require Import List Arith Bool.
Import ListNotations.

(** A message, by whatever names it. *)
Notation note := nat.

(** The two coroutines of a block. *)
Inductive side := Entry | Exit.
(** A task in the loop thread: not asked for; handed over; can run; has run; cancelled before it ran. *)
Inductive task := Never | Queued | Ready | Done | Cancelled.
(** Its concurrent.futures.Future. *)
Inductive future := FPending | FResult | FCancelled.
(** The generator of recv_zero_copy: before its yield; at its yield with a message; ended. *)
Inductive gen := Before | At (m : note) | After (m : note).
(** What the calling thread does.  [lim]: the time-out given. *)
Inductive caller :=
  | Outside
  | Entering (lim : bool)
  | EntryTimedOut
  | Inside (lim : bool) (m : note)
  | Leaving (lim : bool) (m : note)
  | ExitTimedOut (m : note).
(** How a block ended: TimeoutError instead of being entered; TimeoutError on being left; left. *)
Inductive outcome := NotEntered | NotLeft (m : note) | Left (m : note).
(** What the loop has been handed. *)
Inductive job := Start (k : side) (j : nat) | Stop (k : side) (j : nat) | Close (j : nat).

Record state := {
  queue : list note;
  jobs : list job;
  tasks : side -> nat -> task;
  futures : side -> nat -> future;
  gens : nat -> gen;
  thread : caller;
  outcomes : list outcome;
  takes : list (nat * note);        (* which block's generator took which message *)
  releases : list nat }.            (* whose message was released *)

Inductive event :=
  | Arrive (m : note)
  | Enter (lim : bool)         (* the with statement *)
  | Leave                      (* the end of the block *)
  | Loop                       (* the loop executes what it was handed first *)
  | Run (k : side) (j : nat)   (* a task runs *)
  | Deliver (k : side) (j : nat)
  | TimeOut                    (* future.result(timeout) raises *)
  | GiveUp                     (* future.cancel(); raise TimeoutError *)
  | Return                     (* future.result(timeout) returns *)
  | Collect (j : nat).         (* nothing refers to the generator of block j any more *)

Definition upd {A : Type} (f : nat -> A) (i : nat) (x : A) : nat -> A := fun j => if j =? i then x else f j.
Definition same (k k' : side) : bool := match k, k' with Entry, Entry | Exit, Exit => true | _, _ => false end.
Definition upd2 {A : Type} (f : side -> nat -> A) (k : side) (i : nat) (x : A) : side -> nat -> A :=
  fun k' j => if same k' k && (j =? i) then x else f k' j.

(** The block in progress is the one after those that are over. *)
Definition current (s : state) : nat := length (outcomes s).

Definition with_task (s : state) (k : side) (j : nat) (t : task) (js : list job) : state :=
  {| queue := queue s; jobs := js; tasks := upd2 (tasks s) k j t; futures := futures s; gens := gens s;
     thread := thread s; outcomes := outcomes s; takes := takes s; releases := releases s |}.

Definition with_jobs (s : state) (js : list job) : state :=
  {| queue := queue s; jobs := js; tasks := tasks s; futures := futures s; gens := gens s;
     thread := thread s; outcomes := outcomes s; takes := takes s; releases := releases s |}.

Definition with_future (s : state) (k : side) (j : nat) (f : future) : state :=
  {| queue := queue s; jobs := jobs s; tasks := tasks s; futures := upd2 (futures s) k j f; gens := gens s;
     thread := thread s; outcomes := outcomes s; takes := takes s; releases := releases s |}.

Definition with_thread (s : state) (t : caller) (os : list outcome) : state :=
  {| queue := queue s; jobs := jobs s; tasks := tasks s; futures := futures s; gens := gens s;
     thread := t; outcomes := os; takes := takes s; releases := releases s |}.

(** run_coroutine_threadsafe. *)
Definition hand_over (s : state) (k : side) : state :=
  with_task s k (current s) Queued (jobs s ++ [Start k (current s)]).

(** future.cancel(): a future that has a result stays. *)
Definition cancel (s : state) (k : side) : state :=
  match futures s k (current s) with
  | FPending => with_jobs (with_future s k (current s) FCancelled) (jobs s ++ [Stop k (current s)])
  | _ => s
  end.

(** The generator of block [j] runs from its yield to its end: the message is released (subclient.py 311-313). *)
Definition finish (s : state) (j : nat) : option state :=
  match gens s j with
  | At m => Some {| queue := queue s; jobs := jobs s; tasks := tasks s; futures := futures s; gens := upd (gens s) j (After m);
                    thread := thread s; outcomes := outcomes s; takes := takes s; releases := releases s ++ [j] |}
  | _ => None
  end.

Definition step (s : state) (e : event) : option state :=
  match e with
  | Arrive m =>
      Some {| queue := queue s ++ [m]; jobs := jobs s; tasks := tasks s; futures := futures s; gens := gens s;
              thread := thread s; outcomes := outcomes s; takes := takes s; releases := releases s |}
  (* sync.py 73-75 *)
  | Enter lim =>
      match thread s with
      | Outside => Some (with_thread (hand_over s Entry) (Entering lim) (outcomes s))
      | _ => None
      end
  (* sync.py 79-82 *)
  | Leave =>
      match thread s with
      | Inside lim m => Some (with_thread (hand_over s Exit) (Leaving lim m) (outcomes s))
      | _ => None
      end
  | Loop =>
      match jobs s with
      | [] => None
      | Start k j :: r => Some (with_task s k j Ready r)
      | Stop k j :: r =>
          match tasks s k j with
          | Ready => Some (with_task s k j Cancelled r)
          | _ => Some (with_jobs s r)
          end
      | Close j :: r =>
          match finish (with_jobs s r) j with
          | Some s' => Some s'
          | None => Some (with_jobs s r)
          end
      end
  | Run Entry j =>
      match tasks s Entry j, queue s with
      (* subclient.py 299-312 *)
      | Ready, m :: q =>
          Some {| queue := q; jobs := jobs s; tasks := upd2 (tasks s) Entry j Done; futures := futures s;
                  gens := upd (gens s) j (At m); thread := thread s; outcomes := outcomes s;
                  takes := takes s ++ [(j, m)]; releases := releases s |}
      | _, _ => None
      end
  | Run Exit j =>
      match tasks s Exit j with
      | Ready => finish (with_task s Exit j Done (jobs s)) j
      | _ => None
      end
  | Deliver k j =>
      match tasks s k j, futures s k j with
      | Done, FPending => Some (with_future s k j FResult)
      | _, _ => None
      end
  (* sync.py 22 *)
  | TimeOut =>
      match thread s with
      | Entering true =>
          match futures s Entry (current s) with FPending => Some (with_thread s EntryTimedOut (outcomes s)) | _ => None end
      | Leaving true m =>
          match futures s Exit (current s) with FPending => Some (with_thread s (ExitTimedOut m) (outcomes s)) | _ => None end
      | _ => None
      end
  (* sync.py 24-25 *)
  | GiveUp =>
      match thread s with
      | EntryTimedOut => Some (with_thread (cancel s Entry) Outside (outcomes s ++ [NotEntered]))
      | ExitTimedOut m => Some (with_thread (cancel s Exit) Outside (outcomes s ++ [NotLeft m]))
      | _ => None
      end
  | Return =>
      match thread s with
      | Entering lim =>
          match futures s Entry (current s), gens s (current s) with
          | FResult, At m => Some (with_thread s (Inside lim m) (outcomes s))
          | _, _ => None
          end
      | Leaving _ m =>
          match futures s Exit (current s) with
          | FResult => Some (with_thread s Outside (outcomes s ++ [Left m]))
          | _ => None
          end
      | _ => None
      end
  (* the block is over and no task refers to the generator *)
  | Collect j =>
      if j <? current s then
        match tasks s Entry j, tasks s Exit j with
        | Done, (Never | Done | Cancelled) => Some (with_jobs s (jobs s ++ [Close j]))
        | _, _ => None
        end
      else None
  end.

Fixpoint steps (s : state) (es : list event) : option state :=
  match es with
  | [] => Some s
  | e :: es' => match step s e with Some s' => steps s' es' | None => None end
  end.

Definition start : state :=
  {| queue := []; jobs := []; tasks := fun _ _ => Never; futures := fun _ _ => FPending; gens := fun _ => Before;
     thread := Outside; outcomes := []; takes := []; releases := [] |}.
