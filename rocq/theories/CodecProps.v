(** C01 and C04: the integers and opcodes of the wire protocol. *)
From Coq Require Import List NArith.
From Coq Require Import Strings.Byte.
From Verif Require Import CodecModel CodecProofs.
Import ListNotations.

(** C01: encoding succeeds exactly on the unsigned 64-bit integers; an encoding is 8 bytes long and
    decodes to the same integer. *)
Theorem C01_encode_total : forall n, (n < 2 ^ 64)%N <-> exists b, uint64_to_bytes n = Some b.
Proof. exact uint64_defined. Qed.

Theorem C01_roundtrip : forall n b,
  uint64_to_bytes n = Some b -> length b = 8 /\ bytes_to_uint b = n.
Proof. exact uint64_roundtrip. Qed.

(** Out-of-range integers raise (OverflowError): nothing is written. *)
Theorem C01_out_of_range_raises : forall n, (2 ^ 64 <= n)%N -> uint64_to_bytes n = None.
Proof. exact uint64_none. Qed.

(** Every 8-byte group is the encoding of exactly one integer. *)
Theorem C01_every_group_is_one_integer : forall b, length b = 8 ->
  exists n, uint64_to_bytes n = Some b /\ forall m, uint64_to_bytes m = Some b -> m = n.
Proof. exact uint64_unique. Qed.

Example C01_case : uint64_to_bytes 258 = Some [x02; x01; x00; x00; x00; x00; x00; x00]
  /\ bytes_to_uint [x02; x01; x00; x00; x00; x00; x00; x00] = 258%N
  /\ uint64_to_bytes (2 ^ 64) = None.
Proof. repeat split; reflexivity. Qed.

(** C04: each command of the enumeration has a one-byte value, and different commands have
    different bytes; every command is in the enumeration. *)
Theorem C04_one_byte : forall c, exists b, command_value c = Some [b].
Proof. exact command_one_byte. Qed.

Theorem C04_opcodes_distinct : forall c d v,
  command_value c = Some v -> command_value d = Some v -> c = d.
Proof. exact command_value_inj. Qed.

Theorem C04_enumeration_complete : forall c, In c all_commands.
Proof. exact all_commands_complete. Qed.

Example C04_case : command_value TX_SHM <> command_value TX_TCP /\ In RX_ACK all_commands.
Proof. split; [discriminate|apply all_commands_complete]. Qed.

Print Assumptions C01_encode_total.
Print Assumptions C01_roundtrip.
Print Assumptions C01_out_of_range_raises.
Print Assumptions C01_every_group_is_one_integer.
Print Assumptions C04_one_byte.
Print Assumptions C04_opcodes_distinct.
Print Assumptions C04_enumeration_complete.
