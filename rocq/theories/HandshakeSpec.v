(** What C85 says about setting up publishers, channels, subscribers and segments. *)

From Coq Require Import List NArith ZArith Arith Bool.
From Coq Require Import Strings.Byte.
From Verif Require Import CodecModel StreamModel AddressModel Dict HandshakeModel.
Import ListNotations.

(** Nothing can happen any more. *)
Definition stuck (n : net) : Prop := forall a, step a n = None.

(** Whatever happens, in whatever order the coroutines go on and the bytes arrive: it is over after
    finitely many steps, and then [P] holds. *)
Inductive comes_to (P : net -> Prop) : net -> Prop :=
| comes n : (stuck n -> P n) -> (forall a m, step a n = Some m -> comes_to P m) -> comes_to P n.

(** Where the coroutines are. *)
Definition outcomes (n : net) : list prog := map p_prog (n_procs n).
Definition outcome_of (i : nat) (n : net) : option prog := nth_error (outcomes n) i.

(** Every byte written has been read by the other end. *)
Definition nothing_left (n : net) : Prop :=
  forall x, In x (n_conns n) ->
    w_buf (c_out x) = [] /\ w_wire (c_out x) = [] /\ w_buf (c_back x) = [] /\ w_wire (c_back x) = [].

(** Both ends of a connection are open. *)
Definition open (c : nat) (n : net) : Prop :=
  exists x, nth_error (n_conns n) c = Some x /\ c_made x = true /\
    w_closed (c_out x) = false /\ w_closed (c_back x) = false.

(** None of the coroutines holds the command lock. *)
Definition no_lock (n : net) : Prop := forall p, In p (n_procs n) -> p_locked p = false.

(** A text that can be sent: no surrogates, and not absurdly long. *)
Definition sendable (s : pystr) : Prop :=
  (forall c, In c s -> scalar c = true) /\ (4 * N.of_nat (length s) < 2 ^ 64)%N.

(** An identifier; a number that fits the protocol. *)
Definition id_ok (u : uuid) : Prop := (u < 2 ^ 128)%N.
Definition fits64 (n : N) : Prop := (n < 2 ^ 64)%N.

(** An address of IPv4 (all sockets are AF_INET) and its text. *)
Definition address_ok (a : address) : Prop := ~ In colon (fst a) /\ sendable (str_address a).

(** A coroutine that is not waiting: it has returned or raised. *)
Definition over (p : prog) : Prop :=
  match p with Return _ | Raise _ => True | _ => False end.

(** A handler that never started, since nobody has connected to it. *)
Definition not_begun (p : prog) : Prop := match p with Accept _ _ => True | _ => False end.

(** No handler holds the command lock; each has ended, or nobody ever connected to it. *)
Definition handlers_done (n : net) : Prop :=
  no_lock n /\ forall i p, outcome_of (S i) n = Some p -> over p \/ not_begun p.
