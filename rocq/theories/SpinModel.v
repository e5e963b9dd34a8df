(** Subscriptions with callbacks in a SyncContext: src/ezmsg/core/sync.py, [spin_once] (258-317) and
    [_recv_any] (376-444), over what they use of src/ezmsg/core/subclient.py [recv_zero_copy] (286-324)
    and src/ezmsg/core/messagechannel.py [get] (363-382).

    The code between two awaits is one step.  The steps of the event-loop thread and of the thread that
    called [spin_once] interleave with arrivals, changes of the publishers and evictions from the caches
    in any order.

    Simplifications: shutting down while a call spins is LifecycleModel's (C59); a subscription is a
    number below [n], and not leaky (a leaky one throws notifications away on purpose); the value of a message is not represented, only the notification that names it;
    deepcopy is represented by its success or failure. *)
From Coq Require Import List Arith Bool.
From Verif Require Import Dict.
Import ListNotations.

(** A notification: the publisher and the number of the message (subclient.py 299: [pub_id, msg_id]). *)
Notation note := (nat * nat)%type.

(** What one subscription holds: the queue of notifications ([_incoming], subclient.py 135-140) and the
    publishers it has a channel to ([_channels], subclient.py 132). *)
Record sub := { queue : list note; known : list nat }.

(** How one receiving task ended (sync.py 380-386). *)
Inductive outcome :=
  | Got (m : note)        (* the message is held, its context manager entered *)
  | Missed                (* CacheMiss *)
  | Cancelled.

Inductive task :=
  | Fresh                 (* created, not run yet *)
  | Blocked               (* waiting for a notification *)
  | Done (o : outcome)
  | Collected.            (* its result has been read (sync.py 401-412) *)

(** Where the call of [spin_once] stands.  [lim] says whether it was given a time-out. *)
Inductive phase :=
  | Out
  | Waiting (lim : bool) (ts : nat -> task)                                 (* sync.py 395: asyncio.wait *)
  | Gathering (lim : bool) (rs : list (nat * note)) (ts : nat -> task)       (* sync.py 419: asyncio.gather *)
  | Calling (rs : list (nat * note))                                        (* sync.py 295, before an entry *)
  | InCallback (i : nat) (m : note) (rs : list (nat * note)).               (* sync.py 301 *)

(** What can be seen from outside. *)
Inductive obs :=
  | OSpin (lim : bool)               (* spin_once called *)
  | OSkip (i : nat) (m : note)       (* notification of a publisher no longer known, thrown away *)
  | OMiss (i : nat) (m : note)       (* the message is no longer in the cache *)
  | OCall (i : nat) (m : note)       (* the callback of subscription i is called with the message *)
  | OEnd (i : nat) (m : note)        (* ... and has returned or raised *)
  | OUncopied (i : nat) (m : note)   (* deepcopy raised; the callback is not called *)
  | ORelease (i : nat) (m : note)    (* backpressure released *)
  | ODrop (i : nat) (m : note)       (* taken from the queue and given to nobody *)
  | OReturn (b : bool)               (* spin_once returns b *)
  | ORaise.                          (* spin_once raises *)

Record state := {
  subs : nat -> sub;
  cached : list note;
  now : phase;
  log : list obs }.

Inductive event :=
  (* outside *)
  | Arrive (i : nat) (m : note)          (* messagechannel.py 262-345: the message is in the cache, its notification queued *)
  | Publishers (i : nat) (ps : list nat) (* subclient.py 225-255: UPDATE from the graph server *)
  | Evict (m : note)
  (* the calling thread *)
  | Spin (lim : bool)
  | Call (copied : bool)                 (* next entry; whether deepcopy succeeds *)
  | CallbackEnds (interrupted : bool)    (* returns or raises an Exception / raises a BaseException *)
  | Interrupt                            (* KeyboardInterrupt while in spin_once, outside the callbacks *)
  (* the event-loop thread *)
  | Run (i : nat)                        (* task i gets to run *)
  | WaitOver (ord : list nat)            (* asyncio.wait returns; [ord] is how the set [done] is iterated *)
  | Cancel (i : nat)                     (* the cancellation reaches task i *)
  | Resume (late : bool) (ord : list nat). (* gather returns; [late]: the deadline has passed *)

Section Model.
(** Number of subscriptions with a callback, and which of them asked for zero copy (sync.py 127-129). *)
Variable n : nat.
Variable zero_copy : nat -> bool.

Definition upd {A : Type} (f : nat -> A) (i : nat) (x : A) : nat -> A := fun j => if j =? i then x else f j.

(** subclient.py 298-312: notifications of unknown publishers are skipped, the first other one is taken and
    looked up.  Nothing here suspends while the queue is not empty. *)
Fixpoint take (known : list nat) (cache : list note) (q : list note) : list note * option (note * bool) * list note :=
  match q with
  | [] => ([], None, [])
  | m :: q' => if mem (fst m) known then ([], Some (m, mem m cache), q')
               else let '(sk, r, q'') := take known cache q' in (m :: sk, r, q'')
  end.

(** One run of [_recv_entry] (sync.py 380-386).  A miss releases (messagechannel.py 379-382: finally). *)
Definition receive (s : state) (i : nat) : state * task :=
  let x := subs s i in
  let '(sk, r, q) := take (known x) (cached s) (queue x) in
  let skipped := map (OSkip i) sk in
  let s1 l := {| subs := upd (subs s) i {| queue := q; known := known x |}; cached := cached s; now := now s;
                 log := log s ++ skipped ++ l |} in
  match r with
  | None => (s1 [], Blocked)
  | Some (m, true) => (s1 [], Done (Got m))
  | Some (m, false) => (s1 [OMiss i m; ORelease i m], Done Missed)
  end.

Definition is_done (t : task) : bool := match t with Done _ => true | _ => false end.
Definition is_fresh (t : task) : bool := match t with Fresh => true | _ => false end.
Definition is_blocked (t : task) : bool := match t with Blocked => true | _ => false end.

Definition all (f : nat -> bool) : bool := forallb f (seq 0 n).
Definition any (f : nat -> bool) : bool := existsb f (seq 0 n).

Fixpoint distinct (l : list nat) : bool :=
  match l with [] => true | i :: r => negb (mem i r) && distinct r end.

(** [ord] lists the finished tasks, each once, in some order: how Python iterates over a set
    (sync.py 401, 419). *)
Definition lists (ts : nat -> task) (ord : list nat) : bool :=
  distinct ord
  && forallb (fun i => (i <? n) && is_done (ts i)) ord
  && all (fun i => implb (is_done (ts i)) (mem i ord)).

(** sync.py 401-412 and 420-430: the results of finished tasks; misses and cancellations are left out. *)
Definition results (ts : nat -> task) (ord : list nat) : list (nat * note) :=
  flat_map (fun i => match ts i with Done (Got m) => [(i, m)] | _ => [] end) ord.

Definition collect (ts : nat -> task) (i : nat) : task := if is_done (ts i) then Collected else ts i.

Definition set_now (s : state) (p : phase) (l : list obs) : state :=
  {| subs := subs s; cached := cached s; now := p; log := log s ++ l |}.

(** After an entry: the next one, or the end of spin_once (sync.py 316-317). *)
Definition go_on (s : state) (rs : list (nat * note)) (l : list obs) : state :=
  match rs with [] => set_now s Out (l ++ [OReturn true]) | _ => set_now s (Calling rs) l end.

(** What tasks or results hold when they are thrown away. *)
Definition drops (rs : list (nat * note)) : list obs := map (fun im => ODrop (fst im) (snd im)) rs.

Definition step (s : state) (e : event) : option state :=
  match e, now s with
  | Arrive i m, _ =>
      if i <? n then
        Some {| subs := upd (subs s) i {| queue := queue (subs s i) ++ [m]; known := known (subs s i) |};
                cached := m :: cached s; now := now s; log := log s |}
      else None
  | Publishers i ps, _ =>
      if i <? n then
        Some {| subs := upd (subs s) i {| queue := queue (subs s i); known := ps |};
                cached := cached s; now := now s; log := log s |}
      else None
  | Evict m, _ =>
      Some {| subs := subs s; cached := sdel m (cached s); now := now s; log := log s |}
  (* sync.py 269-279: without callbacks there is nothing to wait for; otherwise one task for each (393) *)
  | Spin lim, Out =>
      if n =? 0 then (if lim then Some (set_now s Out [OSpin lim; OReturn false]) else None)
      else Some (set_now s (Waiting lim (fun _ => Fresh)) [OSpin lim])
  (* an idle task runs when created and again when there is a notification *)
  | Run i, Waiting lim ts =>
      if (i <? n) && (is_fresh (ts i) || is_blocked (ts i) && negb (eqd (queue (subs s i)) [])) then
        let '(s1, t) := receive s i in
        Some (set_now s1 (Waiting lim (upd ts i t)) [])
      else None
  (* sync.py 395-418: every task has run once before wait can return; FIRST_COMPLETED, or the time-out *)
  | WaitOver ord, Waiting lim ts =>
      if all (fun i => negb (is_fresh (ts i))) && (any (fun i => is_done (ts i)) || lim) && lists ts ord then
        Some (set_now s (Gathering lim (results ts ord) (collect ts)) [])
      else None
  (* a cancelled task ends cancelled, having taken nothing; should it end by itself, its result is used *)
  | Cancel i, Gathering lim rs ts =>
      if (i <? n) && is_blocked (ts i) then Some (set_now s (Gathering lim rs (upd ts i (Done Cancelled))) []) else None
  | Run i, Gathering lim rs ts =>
      if (i <? n) && is_blocked (ts i) && negb (eqd (queue (subs s i)) []) then
        let '(s1, t) := receive s i in
        Some (set_now s1 (Gathering lim rs (upd ts i t)) [])
      else None
  (* sync.py 419-437, then 292-293 *)
  | Resume late ord, Gathering lim rs ts =>
      if all (fun i => negb (is_blocked (ts i))) && lists ts ord && implb late lim then
        match rs ++ results ts ord with
        | [] => if late then Some (set_now s Out [OReturn false])
                else Some (set_now s (Waiting lim (fun _ => Fresh)) [])
        | rs' => Some (set_now s (Calling rs') [])
        end
      else None
  (* sync.py 298-303: a message is copied unless zero copy was asked for; an Exception is logged *)
  | Call copied, Calling ((i, m) :: rs) =>
      if zero_copy i || copied then Some (set_now s (InCallback i m rs) [OCall i m])
      else Some (go_on s rs [OUncopied i m; ORelease i m])
  (* sync.py 304-316: the message is released whatever the callback does *)
  | CallbackEnds false, InCallback i m rs => Some (go_on s rs [OEnd i m; ORelease i m])
  | CallbackEnds true, InCallback i m rs => Some (set_now s Out ([OEnd i m; ORelease i m] ++ drops rs ++ [ORaise]))
  (* sync.py 284-288: the future is cancelled, and with it _recv_any (438-444: only unfinished tasks are cancelled) *)
  | Interrupt, Waiting lim ts => Some (set_now s Out (drops (results ts (seq 0 n)) ++ [ORaise]))
  | Interrupt, Gathering lim rs ts => Some (set_now s Out (drops (rs ++ results ts (seq 0 n)) ++ [ORaise]))
  | Interrupt, Calling rs => Some (set_now s Out (drops rs ++ [ORaise]))
  | _, _ => None
  end.

Fixpoint steps (s : state) (es : list event) : option state :=
  match es with
  | [] => Some s
  | e :: es' => match step s e with Some s' => steps s' es' | None => None end
  end.

(** Subscriptions made, nothing received yet. *)
Definition start (k : nat -> list nat) : state :=
  {| subs := fun i => {| queue := []; known := k i |}; cached := []; now := Out; log := [] |}.
End Model.
