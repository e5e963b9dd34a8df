(** Model of the byte-level protocol primitives.
    Source: /repo/src/ezmsg/core/netprotocol.py (BYTEORDER = "little", UINT64_SIZE = 8, lines 14-19). *)
From Coq Require Import List NArith Arith Bool.
From Coq Require Import Strings.Byte.
Import ListNotations.

(** Python [bytes]: a list of octets. *)
Definition bytes := list byte.

(** netprotocol.py:14-19 [UINT64_SIZE = 8]. *)
Definition UINT64_SIZE : nat := 8.

(** One octet of [int.to_bytes]: the low 8 bits. *)
Definition byte_of_N (n : N) : byte :=
  match Byte.of_N (N.modulo n 256) with Some b => b | None => x00 end.

(** [int.to_bytes(k, "little", signed=False)] on a number already known to fit. *)
Fixpoint le_bytes (k : nat) (n : N) : bytes :=
  match k with
  | O => []
  | S k' => byte_of_N n :: le_bytes k' (N.div n 256)
  end.

(** netprotocol.py:191-200 [uint64_to_bytes]. [None] is Python's OverflowError
    (value does not fit 8 unsigned bytes). Negative ints are not representable here: the code
    only passes counters, lengths and sizes. *)
Definition uint64_to_bytes (n : N) : option bytes :=
  if N.ltb n (2 ^ 64) then Some (le_bytes UINT64_SIZE n) else None.

(** netprotocol.py:203-212 [bytes_to_uint] = [int.from_bytes(b, "little", signed=False)];
    accepts any number of octets, as Python does. *)
Fixpoint bytes_to_uint (b : bytes) : N :=
  match b with
  | [] => 0
  | x :: b' => Byte.to_N x + 256 * bytes_to_uint b'
  end%N.

(** netprotocol.py:272-348 [class Command]: the members in declaration order. *)
Inductive command :=
| COMPLETE | PUBLISH | SUBSCRIBE | CONNECT | DISCONNECT | CYCLIC | PAUSE | SYNC | RESUME | UPDATE | DAG
| TX_LOCAL | TX_SHM | TX_TCP | RX_ACK
| SHM_CREATE | SHM_ATTACH
| SHUTDOWN
| CHANNEL | SHM_OK | SHM_ATTACH_FAILED
| SESSION | SESSION_CONNECT | SESSION_DISCONNECT | SESSION_CLEAR | SESSION_REGISTER
| SESSION_SNAPSHOT | SESSION_SETTINGS_SNAPSHOT | SESSION_SETTINGS_EVENTS | SESSION_SETTINGS_SUBSCRIBE
| SESSION_TOPOLOGY_SUBSCRIBE | SESSION_PROFILING_SUBSCRIBE | SESSION_PROCESS_REQUEST
| PROCESS | PROCESS_REGISTER | PROCESS_UPDATE_OWNERSHIP | PROCESS_SETTINGS_UPDATE
| PROCESS_PROFILING_TRACE_UPDATE | PROCESS_ROUTE_REQUEST | PROCESS_ROUTE_RESPONSE
| ERROR.

(** netprotocol.py:296-348: the declaration order itself; [enum.auto()] passes the number of
    members declared so far as [count]. *)
Definition all_commands : list command :=
  [ COMPLETE; PUBLISH; SUBSCRIBE; CONNECT; DISCONNECT; CYCLIC; PAUSE; SYNC; RESUME; UPDATE; DAG;
    TX_LOCAL; TX_SHM; TX_TCP; RX_ACK; SHM_CREATE; SHM_ATTACH; SHUTDOWN; CHANNEL; SHM_OK;
    SHM_ATTACH_FAILED; SESSION; SESSION_CONNECT; SESSION_DISCONNECT; SESSION_CLEAR; SESSION_REGISTER;
    SESSION_SNAPSHOT; SESSION_SETTINGS_SNAPSHOT; SESSION_SETTINGS_EVENTS; SESSION_SETTINGS_SUBSCRIBE;
    SESSION_TOPOLOGY_SUBSCRIBE; SESSION_PROFILING_SUBSCRIBE; SESSION_PROCESS_REQUEST; PROCESS;
    PROCESS_REGISTER; PROCESS_UPDATE_OWNERSHIP; PROCESS_SETTINGS_UPDATE;
    PROCESS_PROFILING_TRACE_UPDATE; PROCESS_ROUTE_REQUEST; PROCESS_ROUTE_RESPONSE; ERROR ].

Definition command_eq_dec (a b : command) : {a = b} + {a <> b}.
Proof. decide equality. Defined.

Fixpoint index_of (c : command) (l : list command) : nat :=
  match l with
  | [] => 0
  | d :: l' => if command_eq_dec c d then 0 else S (index_of c l')
  end.

(** netprotocol.py:280-294 [_generate_next_value_]: [count.to_bytes(1, "little", signed=False)].
    [None] is OverflowError (more than 256 members). *)
Definition to_bytes_1 (count : N) : option bytes :=
  if N.ltb count 256 then Some (le_bytes 1 count) else None.

Definition command_value (c : command) : option bytes :=
  to_bytes_1 (N.of_nat (index_of c all_commands)).

(** The octet of a command, for use inside frames ([Command.X.value]). *)
Definition command_byte (c : command) : byte :=
  byte_of_N (N.of_nat (index_of c all_commands)).

(** Unicode scalar values of a Python [str] that [str.encode("utf-8")] accepts: code points below
    0x110000 that are not surrogates. *)
Definition scalar (c : N) : bool :=
  ((c <? 0xD800) || ((0xDFFF <? c) && (c <? 0x110000)))%N.

(** UTF-8 encoding of one scalar value (RFC 3629; CPython's ["utf-8"] codec, strict). *)
Definition utf8_char (c : N) : bytes :=
  (if c <? 0x80 then [byte_of_N c]
   else if c <? 0x800 then [byte_of_N (0xC0 + c / 0x40); byte_of_N (0x80 + c mod 0x40)]
   else if c <? 0x10000 then
     [byte_of_N (0xE0 + c / 0x1000); byte_of_N (0x80 + (c / 0x40) mod 0x40); byte_of_N (0x80 + c mod 0x40)]
   else
     [byte_of_N (0xF0 + c / 0x40000); byte_of_N (0x80 + (c / 0x1000) mod 0x40);
      byte_of_N (0x80 + (c / 0x40) mod 0x40); byte_of_N (0x80 + c mod 0x40)])%N.

(** A Python [str] is a list of code points. *)
Definition pystr := list N.

(** [str.encode("utf-8")]; [None] is UnicodeEncodeError (surrogates). *)
Fixpoint utf8_encode (s : pystr) : option bytes :=
  match s with
  | [] => Some []
  | c :: s' =>
      if scalar c then
        match utf8_encode s' with Some b => Some (utf8_char c ++ b) | None => None end
      else None
  end.

(** A continuation octet and its payload. *)
Definition cont (b : byte) : option N :=
  let n := Byte.to_N b in
  if ((0x80 <=? n) && (n <? 0xC0))%N then Some (n - 0x80)%N else None.

(** [bytes.decode("utf-8")], strict: rejects overlong forms, surrogates and values above 0x10FFFF.
    [None] is UnicodeDecodeError. *)
Fixpoint utf8_decode (b : bytes) : option pystr :=
  match b with
  | [] => Some []
  | b0 :: r0 =>
      let n := Byte.to_N b0 in
      if (n <? 0x80)%N then
        match utf8_decode r0 with Some s => Some (n :: s) | None => None end
      else if (n <? 0xC0)%N then None
      else match r0 with
      | [] => None
      | b1 :: r1 =>
        match cont b1 with
        | None => None
        | Some n1 =>
          if (n <? 0xE0)%N then
            let c := ((n - 0xC0) * 0x40 + n1)%N in
            if (c <? 0x80)%N then None
            else match utf8_decode r1 with Some s => Some (c :: s) | None => None end
          else match r1 with
          | [] => None
          | b2 :: r2 =>
            match cont b2 with
            | None => None
            | Some n2 =>
              if (n <? 0xF0)%N then
                let c := ((n - 0xE0) * 0x1000 + n1 * 0x40 + n2)%N in
                if (c <? 0x800)%N then None
                else if negb (scalar c) then None
                else match utf8_decode r2 with Some s => Some (c :: s) | None => None end
              else if (n <? 0xF8)%N then
                match r2 with
                | [] => None
                | b3 :: r3 =>
                  match cont b3 with
                  | None => None
                  | Some n3 =>
                    let c := ((n - 0xF0) * 0x40000 + n1 * 0x1000 + n2 * 0x40 + n3)%N in
                    if (c <? 0x10000)%N then None
                    else if negb (scalar c) then None
                    else match utf8_decode r3 with Some s => Some (c :: s) | None => None end
                  end
                end
              else None
            end
          end
        end
      end
  end.

(** netprotocol.py:215-226 [encode_str]. *)
Definition encode_str (s : pystr) : option bytes :=
  match utf8_encode s with
  | None => None
  | Some str_bytes =>
      match uint64_to_bytes (N.of_nat (length str_bytes)) with
      | None => None
      | Some str_len_bytes => Some (str_len_bytes ++ str_bytes)
      end
  end.
