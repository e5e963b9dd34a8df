(** What C100 is about. *)
From Coq Require Import String Ascii.
From Coq Require Import List Arith NArith ZArith Bool Strings.Byte.
From Verif Require Import CodecModel AddressModel CmdModel.
Import ListNotations.
Local Open Scope nat_scope.

(** The graph server a command is about: the one named, else the one of the environment, else the default. *)
Definition names_server (e : environ) (a : cargs) (g : address) : Prop :=
  match address_arg a, graph_env e with
  | Some s, _ => from_string s = Some g
  | None, Some s => from_string s = Some g
  | None, None => g = (text "127.0.0.1", 25978%Z)
  end.

(** Where the dashboard of the server at [g] is. *)
Definition dashboard_place (e : environ) (g : address) (d : dash) (p : address) : Prop :=
  let base := match dash_env e with Some s => from_string s = Some p | None => p = (fst g, (snd g + 1)%Z) end in
  match d with
  | OnPort z => snd p = z /\ exists q, match dash_env e with Some s => from_string s = Some (fst p, q) | None => fst p = fst g end
  | _ => base
  end.

(** Big-endian bits. *)
Definition bits (k : nat) (n : N) : list bool := map (fun i => N.testbit n (N.of_nat i)) (rev (seq 0 k)).
(** RFC 4648, table 1. *)
Definition char64 (d : N) : N :=
  (if d <? 26 then 65 + d else if d <? 52 then 71 + d else if d <? 62 then d - 4 else if d =? 62 then 43 else 47)%N.
(** Groups of six bits as characters, the last one filled with zeros, and "=" to a multiple of four. *)
Definition is_base64 (b : bytes) (s : pystr) : Prop :=
  exists ds pad, s = map char64 ds ++ repeat 61%N pad /\ Forall (fun d => d < 64)%N ds /\ pad <= 2 /\
    flat_map (bits 6) ds = flat_map (fun x => bits 8 (Byte.to_N x)) b ++ repeat false (2 * pad) /\
    length s mod 4 = 0.
