(* Specification for C93: how many messages of a publisher are in flight, from what has
   happened (newest first). A publisher with n buffers puts message m into buffer m mod n. *)
From Coq Require Import List Arith ZArith Bool.
From Verif Require Import BackpressureModel InflightModel.
Import ListNotations.

(** Channel c has been given the message in buffer i and has not handled it. *)
Fixpoint unhandled (n : nat) (h : list fact) (c i : nat) : bool :=
  match h with
  | [] => false
  | Sent d m :: h => ((c =? d) && (i =? m mod n)) || unhandled n h c i
  | Acked d m :: h => negb ((c =? d) && (i =? m mod n)) && unhandled n h c i
  | Closed d :: h => negb (c =? d) && unhandled n h c i
  | _ :: h => unhandled n h c i
  end.

(** The channels that were ever given anything. *)
Fixpoint channels (h : list fact) : list nat :=
  match h with
  | Sent c _ :: h => c :: channels h
  | _ :: h => channels h
  | [] => []
  end.

(** The number of buffers whose message some channel has not handled yet. *)
Definition in_flight (n : nat) (h : list fact) : nat :=
  length (filter (fun i => existsb (fun c => unhandled n h c i) (channels h)) (seq 0 n)).

(** Nothing went through the publisher's own process. *)
Definition nothing_local (l : list ev) : Prop :=
  forall e, In e l -> match e with Go _ loc _ => loc = false | LocalAck _ => False | _ => True end.

(** A report is right if it is the number in flight when it was made. *)
Fixpoint reports_right (n : nat) (h : list fact) : Prop :=
  match h with
  | Reported z :: h => z = Z.of_nat (in_flight n h) /\ reports_right n h
  | _ :: h => reports_right n h
  | [] => True
  end.

(** A report never claims more in flight than there are buffers. *)
Fixpoint reports_bounded (n : nat) (h : list fact) : Prop :=
  match h with
  | Reported z :: h => (0 <= z <= Z.of_nat n)%Z /\ reports_bounded n h
  | _ :: h => reports_bounded n h
  | [] => True
  end.

(** Calls of broadcast that are handing out their message. *)
Fixpoint under_way (h : list fact) : nat :=
  match h with
  | Began :: h => S (under_way h)
  | Returned :: h => under_way h - 1
  | _ :: h => under_way h
  | [] => 0
  end.

(** While no broadcast is under way a report is not too small. *)
Fixpoint reports_not_below (n : nat) (h : list fact) : Prop :=
  match h with
  | Reported z :: h => (under_way h = 0 -> (Z.of_nat (in_flight n h) <= z)%Z) /\ reports_not_below n h
  | _ :: h => reports_not_below n h
  | [] => True
  end.

(** What the publisher last heard: the number in flight when a broadcast last returned or
    something last happened with the channel of another process. *)
Fixpoint last_heard (n : nat) (h : list fact) : nat :=
  match h with
  | Sent (S _) _ :: _ | Acked (S _) _ :: _ | Closed _ :: _ | Returned :: _ => in_flight n h
  | _ :: h => last_heard n h
  | [] => 0
  end.

Fixpoint reports_last_heard (n : nat) (h : list fact) : Prop :=
  match h with
  | Reported z :: h => z = Z.of_nat (last_heard n h) /\ reports_last_heard n h
  | _ :: h => reports_last_heard n h
  | [] => True
  end.
