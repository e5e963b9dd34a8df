(* Model of the in-flight count a publisher reports in its profile:
     pubclient.py:400-439   _handle_channel (acknowledgements of other processes)
     pubclient.py:475-569   broadcast
     messagechannel.py:345-361, 398-416   put_local, _release_backpressure
     profiling.py:48-50, 92-122   record_publish, sample_inflight, snapshot
   on top of BackpressureModel.

   Channel 0 is the publisher's own channel (subscribers in the same process), the
   channels of other processes are 1, 2, ...

   Simplifications: when a broadcast may proceed is C86's and C15's matter: here a
   call that has entered may go on at any time, and any number of calls may be under
   way; which channels it is written to, and whether the publisher's own channel has
   somebody to notify, is part of the event.  What is written is not modelled. *)

From Coq Require Import List Arith ZArith Bool.
From Verif Require Import BackpressureModel.
Import ListNotations.

(** What has happened, as seen from outside (newest first): a channel was given message
    number m, a channel has handled message number m, a channel was closed, a call of
    broadcast began to hand out its message, one returned, a snapshot was taken and
    reported a number in flight. *)
Inductive fact :=
| Sent (c m : nat) | Acked (c m : nat) | Closed (c : nat) | Began | Returned | Reported (z : Z).

(** A broadcast call: before its buffer was found free, and while it writes to channels. *)
Inductive call := Waiting (m : nat) | Writing (m : nat) (todo : list nat).

Record st := mkSt {
  bp : backpressure;          (* _backpressure *)
  nxt : nat;                  (* _msg_id *)
  calls : list call;          (* calls of broadcast that have not returned *)
  infl : Z;                   (* inflight_messages_current *)
  log : list fact             (* ghost *)
}.

(** pubclient.py:150-175, profiling.py:33-47 — a new publisher with n buffers. *)
Definition init (n : nat) : st := mkSt (bp_new n) 0 [] 0%Z [].

Definition remove_nth {A : Type} (k : nat) (l : list A) : list A := firstn k l ++ skipn (S k) l.

(** profiling.py:92-93 — sample_inflight(self._backpressure.pressure); also the part of
    record_publish (profiling.py:50) about the count. *)
Definition sampled (s : st) : st := mkSt (bp s) (nxt s) (calls s) (pressure (bp s)) (log s).

(** self._backpressure.lease(c, slot) / free(c, slot) / free(c), with the fact it is about. *)
Definition lease (s : st) (c m slot : nat) : st :=
  mkSt (bp_lease c slot (bp s)) (nxt s) (calls s) (infl s) (Sent c m :: log s).
Definition free (n : nat) (s : st) (c m : nat) : st :=
  mkSt (bp_free c (Some (m mod n)) (bp s)) (nxt s) (calls s) (infl s) (Acked c m :: log s).
Definition free_all (s : st) (c : nat) : st :=
  mkSt (bp_free c None (bp s)) (nxt s) (calls s) (infl s) (Closed c :: log s).

Inductive ev :=
| Enter                          (* broadcast is called *)
| Go (k : nat) (loc : bool) (todo : list nat)
                                 (* the k-th call has its buffer; loc: own subscribers notified *)
| Wrote (k : nat) (ok : bool)    (* its next channel: written and drained, or connection lost *)
| Finish (k : nat)               (* it returns *)
| Ack (c m : nat)                (* RX_ACK of m from the channel of another process *)
| Gone (c : nat)                 (* the connection of such a channel ended *)
| LocalAck (m : nat)             (* the last subscriber in this process released m *)
| Snapshot.

Definition set_calls (s : st) (l : list call) : st := mkSt (bp s) (nxt s) l (infl s) (log s).

Definition note (s : st) (f : fact) : st := mkSt (bp s) (nxt s) (calls s) (infl s) (f :: log s).

(** One section between awaits; [None]: not possible now. *)
Definition step (n : nat) (s : st) (e : ev) : option st :=
  match e with
  | Enter =>                     (* pubclient.py:485-488 *)
      Some (set_calls s (calls s ++ [Waiting (nxt s)]))
  | Go k loc todo =>             (* pubclient.py:503-505, messagechannel.py:345-361: put_local(self._msg_id) *)
      match nth_error (calls s) k with
      | Some (Waiting m) =>
          let s := set_calls s (set_nth k (Writing m (map S todo)) (calls s)) in
          let s := note s Began in
          Some (if loc then lease s 0 (nxt s) (nxt s mod n) else s)
      | _ => None
      end
  | Wrote k ok =>                (* pubclient.py:556-566 *)
      match nth_error (calls s) k with
      | Some (Writing m (c :: todo)) =>
          let s := set_calls s (set_nth k (Writing m todo) (calls s)) in
          Some (if ok then sampled (lease s c m (m mod n)) else s)
      | _ => None
      end
  | Finish k =>                  (* pubclient.py:568-569 *)
      match nth_error (calls s) k with
      | Some (Writing m []) =>
          let s := sampled (set_calls s (remove_nth k (calls s))) in
          Some (note (mkSt (bp s) (S (nxt s)) (calls s) (infl s) (log s)) Returned)
      | _ => None
      end
  | Ack c m => Some (sampled (free n s (S c) m))         (* pubclient.py:425-428 *)
  | Gone c => Some (sampled (free_all s (S c)))          (* pubclient.py:433-435 *)
  | LocalAck m => Some (free n s 0 m)                    (* messagechannel.py:412-414 *)
  | Snapshot =>                                          (* profiling.py:95-122 *)
      Some (note s (Reported (infl s)))
  end.

Inductive run (n : nat) : list ev -> st -> Prop :=
| run_nil : run n [] (init n)
| run_snoc l s e s' : run n l s -> step n s e = Some s' -> run n (l ++ [e]) s'.
