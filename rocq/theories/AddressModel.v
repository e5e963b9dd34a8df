(* Model of addresses and of port allocation, netprotocol.py:
     36-94    Address,
     351-405  create_socket. *)

From Coq Require Import List NArith ZArith Arith Bool.
From Verif Require Import CodecModel StreamModel.
Import ListNotations.

(** ** Addresses *)

(** str of an int: the decimal digits of the standard library's conversion. *)
Fixpoint uint_chars (d : Decimal.uint) : pystr :=
  match d with
  | Decimal.Nil => []
  | Decimal.D0 d => 48%N :: uint_chars d
  | Decimal.D1 d => 49%N :: uint_chars d
  | Decimal.D2 d => 50%N :: uint_chars d
  | Decimal.D3 d => 51%N :: uint_chars d
  | Decimal.D4 d => 52%N :: uint_chars d
  | Decimal.D5 d => 53%N :: uint_chars d
  | Decimal.D6 d => 54%N :: uint_chars d
  | Decimal.D7 d => 55%N :: uint_chars d
  | Decimal.D8 d => 56%N :: uint_chars d
  | Decimal.D9 d => 57%N :: uint_chars d
  end.

Definition str_int (z : Z) : pystr :=
  match Z.to_int z with
  | Decimal.Pos d => uint_chars d
  | Decimal.Neg d => 45%N :: uint_chars d
  end.

(** str.split(sep) with a separator of one character. *)
Fixpoint split (sep : N) (s : pystr) : list pystr :=
  match s with
  | [] => [[]]
  | c :: s =>
      if (c =? sep)%N then [] :: split sep s
      else match split sep s with h :: t => (c :: h) :: t | [] => [[c]] end
  end.

(** Python's int(text) in base 10, None being ValueError: surrounding whitespace, a sign and single
    underscores between digits are accepted.  Simplified: the whitespace is that of Latin-1, and
    digits are those of ASCII (int also takes the other decimal digits of Unicode). *)
Definition is_space (c : N) : bool :=
  ((9 <=? c) && (c <=? 13) || (28 <=? c) && (c <=? 32) || (c =? 0x85) || (c =? 0xA0))%N.

Fixpoint lstrip (s : pystr) : pystr :=
  match s with c :: r => if is_space c then lstrip r else s | [] => [] end.

Definition strip (s : pystr) : pystr := rev (lstrip (rev (lstrip s))).

Definition is_digit (c : N) : bool := ((48 <=? c) && (c <=? 57))%N.

Fixpoint digits (s : pystr) (acc : N) (after_digit : bool) : option N :=
  match s with
  | [] => if after_digit then Some acc else None
  | c :: s =>
      if is_digit c then digits s (10 * acc + (c - 48))%N true
      else if (c =? 95)%N && after_digit then digits s acc false
      else None
  end.

Definition int_of (s : pystr) : option Z :=
  match strip s with
  | [] => None
  | c :: r =>
      if (c =? 45)%N then option_map (fun n => - Z.of_N n)%Z (digits r 0 false)
      else if (c =? 43)%N then option_map Z.of_N (digits r 0 false)
      else option_map Z.of_N (digits (c :: r) 0 false)
  end.

Definition address : Type := pystr * Z.
Definition colon : N := 58%N.

(** 93-94 __str__ *)
Definition str_address (a : address) : pystr := fst a ++ colon :: str_int (snd a).

(** 61-72 from_string; None is the ValueError of the unpacking or of int. *)
Definition from_string (s : pystr) : option address :=
  match split colon s with
  | [host; port] => option_map (fun p => (host, p)) (int_of port)
  | _ => None
  end.

(** 74-81 to_stream *)
Definition to_stream (a : address) : option bytes := encode_str (str_address a).

(** 49-59 from_stream *)
Definition from_stream : reader address :=
  bind read_str (fun s => match from_string s with Some a => Ret a | None => Raise end).

(** ** Port allocation *)

Definition RESERVED_PORTS : list nat := [25978].      (* 22, 24 *)

(** A call of sock.bind(host, port): the port asked for, and the port the socket is bound to or
    None for OSError. *)
Record attempt := Attempt { asked : nat; got : option nat }.

(** The operating system: its answer to a bind may depend on everything asked before. *)
Notation os := (list attempt -> nat -> option nat).

(** 386-405: the port scan, [n] ports being left.  Result: the bound port, None for the IOError
    at the end, and the bind calls made, in order. *)
Fixpoint scan (bind : os) (ignore_ports : list nat) (n port : nat) (made : list attempt)
  : option nat * list attempt :=
  match n with
  | 0 => (None, made)
  | S n =>
      if existsb (Nat.eqb port) ignore_ports then scan bind ignore_ports n (S port) made
      else
        match bind made port with
        | Some p => (Some p, made ++ [Attempt port (Some p)])
        | None => scan bind ignore_ports n (S port) (made ++ [Attempt port None])
        end
  end.

(** 351-405 *)
Definition create_socket (bind : os) (port : option nat) (start_port max_port : nat) (ignore_ports : list nat)
  : option nat * list attempt :=
  match port with
  | Some p => (bind [] p, [Attempt p (bind [] p)])      (* 378-384: an OSError is the caller's *)
  | None => scan bind ignore_ports (S max_port - start_port) start_port []
  end.
