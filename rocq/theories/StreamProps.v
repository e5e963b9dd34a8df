(** C02 and C03: framing and fragmentation. *)
From Coq Require Import List NArith.
From Coq Require Import Strings.Byte.
From Verif Require Import CodecModel CodecProofs StreamModel StreamProofs.
Import ListNotations.

(** C02: reading with the matching kinds gives the written values back and leaves [rest], whatever
    it is, untouched in the stream. *)
Theorem C02_fields_parse_back : forall fs b rest,
  write_fields fs = Some b -> run (read_fields (map kind_of fs)) (b ++ rest) = Done fs rest.
Proof. exact run_read_fields. Qed.

(** A string can be sent exactly when each of its code points is a Unicode scalar value and its
    UTF-8 form is shorter than 2^64 octets (and the receiver gets the same code points). *)
Theorem C02_string_parse_back : forall s b rest,
  encode_str s = Some b -> run read_str (b ++ rest) = Done s rest.
Proof. exact run_read_str. Qed.

Theorem C02_string_encodable : forall s,
  (exists b, utf8_encode s = Some b) <-> (forall c, In c s -> scalar c = true).
Proof. exact utf8_encode_defined. Qed.

Example C02_case :
  let fs := [FCmd CHANNEL; FInt 70000; FStr [0x41; 0xE9; 0x20AC; 0x1F600]%N; FBlock [x07; xff]] in
  exists b, write_fields fs = Some b /\ length b = 1 + 8 + (8 + 10) + 2
    /\ run (read_fields [KCmd; KInt; KStr; KBlock 2]) (b ++ [x42]) = Done fs [x42].
Proof. eexists. split; [vm_compute; reflexivity|]. split; vm_compute; reflexivity. Qed.

(** C03: two ways of splitting the same byte stream give the same deliveries and leave the
    connection loop in the same state; any byte stream, well formed or not. *)
Theorem C03_channel_fragmentation : forall chunks1 chunks2,
  concat chunks1 = concat chunks2 ->
  feeds read_frame (Waiting read_frame []) chunks1 = feeds read_frame (Waiting read_frame []) chunks2.
Proof. exact frames_same_bytes. Qed.

Theorem C03_publisher_fragmentation : forall chunks1 chunks2,
  concat chunks1 = concat chunks2 ->
  feeds read_ack (Waiting read_ack []) chunks1 = feeds read_ack (Waiting read_ack []) chunks2.
Proof. exact acks_same_bytes. Qed.

(** When everything written has arrived, exactly the written messages have been delivered. *)
Theorem C03_channel_delivers_all : forall fs b chunks,
  write_all write_frame fs = Some b -> concat chunks = b ->
  feeds read_frame (Waiting read_frame []) chunks = (fs, Waiting read_frame []).
Proof. exact frames_complete. Qed.

Theorem C03_publisher_delivers_all : forall ids b chunks,
  write_all write_ack ids = Some b -> concat chunks = b ->
  feeds read_ack (Waiting read_ack []) chunks = (map Some ids, Waiting read_ack []).
Proof. exact acks_complete. Qed.

(** Connection cut after any byte: what was delivered is the first [k] messages, where [k] is the
    largest number of messages whose bytes had completely arrived. *)
Theorem C03_channel_cut_anywhere : forall fs b chunks tail,
  write_all write_frame fs = Some b -> b = concat chunks ++ tail ->
  exists k pre, k <= length fs /\
    write_all write_frame (firstn k fs) = Some pre /\ length pre <= length (concat chunks) /\
    (forall pre', k < length fs -> write_all write_frame (firstn (S k) fs) = Some pre' ->
                  length (concat chunks) < length pre') /\
    fst (feeds read_frame (Waiting read_frame []) chunks) = firstn k fs.
Proof. exact frames_cut. Qed.

Theorem C03_publisher_cut_anywhere : forall ids b chunks tail,
  write_all write_ack ids = Some b -> b = concat chunks ++ tail ->
  exists k pre, k <= length ids /\
    write_all write_ack (firstn k ids) = Some pre /\ length pre <= length (concat chunks) /\
    (forall pre', k < length ids -> write_all write_ack (firstn (S k) ids) = Some pre' ->
                  length (concat chunks) < length pre') /\
    fst (feeds read_ack (Waiting read_ack []) chunks) = map Some (firstn k ids).
Proof. exact acks_cut. Qed.

(** Two frames, one through shared memory and one inline, cut inside the second. *)
Example C03_case :
  let fs := [F_SHM 5 [0x70; 0x73]%N; F_TCP 6 [x01; x02; x03]] in
  exists b, write_all write_frame fs = Some b /\ length b = 39 /\
    fst (feeds read_frame (Waiting read_frame []) [firstn 3 b; firstn 33 (skipn 3 b)]) = firstn 1 fs /\
    fst (feeds read_frame (Waiting read_frame []) (map (fun x => [x]) b)) = fs.
Proof. eexists. split; [vm_compute; reflexivity|]. repeat split; vm_compute; reflexivity. Qed.

Print Assumptions C02_fields_parse_back.
Print Assumptions C02_string_parse_back.
Print Assumptions C02_string_encodable.
Print Assumptions C03_channel_fragmentation.
Print Assumptions C03_publisher_fragmentation.
Print Assumptions C03_channel_delivers_all.
Print Assumptions C03_publisher_delivers_all.
Print Assumptions C03_channel_cut_anywhere.
Print Assumptions C03_publisher_cut_anywhere.
