(* What is promised of the traced samples of a process, and of closing its connection. *)

From Coq Require Import List Arith Bool.
From Verif Require Import TracePushModel.
Import ListNotations.

Section Spec.
Context (cap limit : nat).

(** [l] is in increasing order. *)
Fixpoint increasing (l : list nat) : Prop :=
  match l with
  | [] => True
  | x :: l => (forall y, In y l -> x < y) /\ increasing l
  end.

(** Nobody changes the tracing, fetches samples by hand, or ends the connection. *)
Definition undisturbed (a : label) : Prop :=
  match a with Control _ _ | Fetch _ | Close | Lost => False | _ => True end.
Definition connected (a : label) : Prop := match a with Close | Lost => False | _ => True end.

(** The buffer of samples has room whenever one is recorded. *)
Fixpoint roomy (s : st) (l : list label) : Prop :=
  match l with
  | [] => True
  | a :: l => (a = Record -> length (pend s) < cap) /\ forall s', step cap limit s a = Some s' -> roomy s' l
  end.

(** A task that was not cancelled has a batch in hand. *)
Definition in_hand (s : st) (i : nat) (b : list nat) : Prop :=
  exists x, nth_error (tasks s) i = Some x /\ tp x = TLock b /\ cancelled x = false.

(** Nothing is waiting to be sent or read. *)
Definition settled (s : st) : Prop := pend s = [] /\ wire s = [] /\ forall i b, ~ in_hand s i b.

(** A push task runs. *)
Definition pushing (s : st) (i : nat) : Prop :=
  exists x, nth_error (tasks s) i = Some x /\ tp x <> TDone /\ cancelled x = false.

(** What the process and the server do by themselves: no samples, requests, time. *)
Definition own (a : label) : Prop :=
  match a with
  | Wake _ | Write _ | Drained _ | Die _ | IoDrained | OtherDrained | Arrive => True
  | _ => False
  end.

(** What happens in the client when its tasks are cancelled, without waiting for the lock or for the server. *)
Definition unwinding (a : label) : Prop :=
  match a with Die _ | IoResume | CloseResume | IoCancelled | CloseEnd => True | _ => False end.

(** close() does not cancel the I/O loop just while that waits for a cancelled push task to end. *)
Definition waits_for_task (s : st) : Prop := exists i, io s = IOAwait i.
Definition timely_step (s : st) (a : label) : Prop :=
  match a with
  | Close => handle s = None -> ~ waits_for_task s
  | CloseResume => ~ waits_for_task s
  | _ => True
  end.
Fixpoint timely (s : st) (l : list label) : Prop :=
  match l with
  | [] => True
  | a :: l => timely_step s a /\ forall s', step cap limit s a = Some s' -> timely s' l
  end.
End Spec.
