(** Model of the transport choice in /repo/src/ezmsg/core/pubclient.py. *)
From Coq Require Import List NArith Arith Bool String Ascii.
Import ListNotations.
Local Open Scope string_scope.

(** [str.lower] on the ASCII letters (environment values with other letters never equal a listed word;
    U+212A KELVIN SIGN lowers to 'k', U+0130 to 'i'+dot: neither gives one of the four words). *)
Definition lower_ascii (c : ascii) : ascii :=
  let n := N_of_ascii c in
  if (N.leb 65 n && N.leb n 90)%bool then ascii_of_N (n + 32) else c.
Fixpoint lower (s : string) : string :=
  match s with EmptyString => EmptyString | String c s' => String (lower_ascii c) (lower s') end.

Definition truthy (s : string) : bool := existsb (String.eqb (lower s)) ["1"; "true"; "yes"; "on"].

(** pubclient.py:45-49 [_process_allow_local_default]; [None]: variable not set. *)
Definition allow_local_default (env : option string) : bool :=
  let value := match env with Some s => s | None => "" end in
  if String.eqb value "" then true else truthy value.

(** pubclient.py:52-56 [_process_force_tcp_default]. *)
Definition force_tcp_default (env : option string) : bool :=
  let value := match env with Some s => s | None => "" end in
  if String.eqb value "" then false else truthy value.

(** pubclient.py:59-62. *)
Definition resolve_force_tcp (env : option string) (force_tcp : option bool) : bool :=
  match force_tcp with None => force_tcp_default env | Some b => b end.

(** pubclient.py:65-70. *)
Definition resolve_allow_local (env : option string) (force_tcp : bool) (allow_local : option bool) : bool :=
  let resolved := match allow_local with None => allow_local_default env | Some b => b end in
  if force_tcp && resolved then false else resolved.

(** Everything the choice depends on. *)
Record pub_config := {
  env_force_tcp : option string; env_allow_local : option string;   (* environment *)
  opt_force_tcp : option bool; opt_allow_local : option bool;       (* constructor options *)
  pub_pid : nat }.
Record channel_info := { ch_pid : nat; ch_shm_ok : bool }.

(** pubclient.py:284-287 (constructor). *)
Definition cfg_force_tcp (c : pub_config) : bool := resolve_force_tcp (env_force_tcp c) (opt_force_tcp c).
Definition cfg_allow_local (c : pub_config) : bool :=
  resolve_allow_local (env_allow_local c) (cfg_force_tcp c) (opt_allow_local c).

(** pubclient.py:574-575 [_can_deliver_locally], 577-582 [_can_deliver_via_shm]. *)
Definition can_deliver_locally (c : pub_config) (ch : channel_info) : bool :=
  cfg_allow_local c && Nat.eqb (pub_pid c) (ch_pid ch) && ch_shm_ok ch.
Definition can_deliver_via_shm (c : pub_config) (ch : channel_info) : bool :=
  negb (cfg_force_tcp c) && ch_shm_ok ch && negb (can_deliver_locally c ch).

(** pubclient.py:492-569 [broadcast], the decisions only: the channels are visited in order; what is done for each. *)
Inductive transport := InProcess | SharedMemory | Tcp.

(** The actions of one broadcast on the channels, in order: [put_local] once if any channel is local
    (498-499); then for every non-local channel one frame, TX_SHM or TX_TCP (541-562). *)
Inductive action := PutLocal | SendShm (ix : nat) | SendTcp (ix : nat).

Fixpoint frames (c : pub_config) (ix : nat) (chs : list channel_info) : list action :=
  match chs with
  | [] => []
  | ch :: chs' =>
      (if can_deliver_locally c ch then []
       else if can_deliver_via_shm c ch then [SendShm ix] else [SendTcp ix]) ++ frames c (S ix) chs'
  end.

Definition broadcast_actions (c : pub_config) (chs : list channel_info) : list action :=
  (if existsb (can_deliver_locally c) chs then [PutLocal] else []) ++ frames c 0 chs.
