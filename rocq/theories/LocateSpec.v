(* What C81 says, without the model's helpers: who listens where, what a call has come to, which address a call
   is about and whether it may start a server.  Only the tables of LocateModel (sockets, calls) and
   its events are read. *)

From Coq Require Import String List Arith NArith Bool.
From Verif Require Import Dict LocateModel.
Import ListNotations.
Open Scope N_scope.

(** ** The machine at one moment *)

(** Some graph server listens at [a]. *)
Definition served (w : world) (a : addr) : Prop :=
  exists n s, In (n, s) (socks w) /\ s_addr s = a /\ s_listens s = true /\ s_kind s = Graph.

(** The server made by call i, and nothing else, listens at [a]. *)
Definition serves (w : world) (i : nat) (a : addr) : Prop :=
  (exists n s, In (n, s) (socks w) /\ s_addr s = a /\ s_listens s = true /\ s_owner s = Some i) /\
  (forall n s, In (n, s) (socks w) -> s_addr s = a -> s_listens s = true -> s_owner s = Some i).

(** Another program, not a graph server, listens at [a]. *)
Definition squatted (w : world) (a : addr) : Prop :=
  exists n s, In (n, s) (socks w) /\ s_addr s = a /\ s_listens s = true /\ s_kind s <> Graph.

(** Something is bound to [a], or the system lets nobody bind it. *)
Definition taken (refuses : addr -> bool) (w : world) (a : addr) : Prop :=
  refuses a = true \/ exists n s, In (n, s) (socks w) /\ s_addr s = a.

(** [a] can be bound by a program that asked for that very address: nobody listens there, and what is bound there
    has set SO_REUSEADDR as well. *)
Definition free_for_reuse (refuses : addr -> bool) (w : world) (a : addr) : Prop :=
  refuses a = false /\ forall n s, In (n, s) (socks w) -> s_addr s = a -> s_reuse s = true /\ s_listens s = false.

(** ** Calls *)

(** Call i was made, as [c]. *)
Definition called (w : world) (i : nat) (c : call) : Prop :=
  exists ph, get i (agents w) = Some (mkAgent c ph).

(** Call i has come to its end: it returned or raised. *)
Definition ended (w : world) (i : nat) (o : outcome) : Prop :=
  exists c, get i (agents w) = Some (mkAgent c (Done o)).

(** Call i is under way. *)
Definition pending (w : world) (i : nat) : Prop :=
  exists c ph, get i (agents w) = Some (mkAgent c ph) /\ forall o, ph <> Done o.

(** The address a program means: the one given, else EZMSG_GRAPHSERVER_ADDR, else 127.0.0.1:25978. *)
Definition meant (given : option addr) (env : environ) : addr :=
  match given, env_addr env with
  | Some a, _ => a
  | None, Some a => a
  | None, None => ("127.0.0.1"%string, 25978)
  end.

(** An address after name resolution. *)
Definition at_ (resolve : string -> string) (a : addr) : addr := (resolve (fst a), snd a).

(** A server may be started: auto_start is true, or it is not given and no address is given either, neither as an
    argument nor in the environment (docstring of GraphService.ensure and of GraphContext). *)
Definition may_start (given : option addr) (auto_start : option bool) (env : environ) : Prop :=
  auto_start = Some true \/ (auto_start = None /\ given = None /\ env_addr env = None).

(** A call whose server has to find a port by itself: on which host, from which port on. *)
Definition searches (c : call) (host : string) (start : N) : Prop :=
  match c with
  | Ensure None _ env => host = "127.0.0.1"%string /\ start = env_server_start env
  | Create None env => host = "127.0.0.1"%string /\ start = env_server_start env
  | Publish None None env => host = "127.0.0.1"%string /\ start = env_pub_start env
  | Publish (Some h) None env => host = h /\ start = env_pub_start env
  | _ => False
  end.

(** A call whose server is to listen at a given address. *)
Definition demands (c : call) (a : addr) : Prop :=
  match c with
  | Ensure (Some b) _ _ => a = b
  | Create (Some b) _ => a = b
  | Publish None (Some p) _ => a = ("127.0.0.1"%string, p)
  | Publish (Some h) (Some p) _ => a = (h, p)
  | _ => False
  end.

(** [p] is the lowest port from [start] on that is free on [host], leaving out 25978. *)
Definition lowest_free (refuses : addr -> bool) (w : world) (host : string) (start p : N) : Prop :=
  start <= p <= 65535 /\ p <> 25978 /\ ~ taken refuses w (host, p) /\
  forall q, start <= q < p -> q <> 25978 -> taken refuses w (host, q).

(** Every port from [start] on, 25978 left out, is taken. *)
Definition none_free (refuses : addr -> bool) (w : world) (host : string) (start : N) : Prop :=
  forall q, start <= q <= 65535 -> q <> 25978 -> taken refuses w (host, q).

(** ** What a call of ensure comes to when nothing else happens meanwhile. *)
Inductive verdict (resolve : string -> string) (refuses : addr -> bool) (w : world)
    (given : option addr) (auto_start : option bool) (env : environ) : outcome -> Prop :=
| v_found : served w (at_ resolve (meant given env)) -> verdict resolve refuses w given auto_start env Found
| v_refused : ~ served w (at_ resolve (meant given env)) -> ~ may_start given auto_start env ->
    verdict resolve refuses w given auto_start env Refused
| v_started : forall a, ~ served w (at_ resolve (meant given env)) -> may_start given auto_start env ->
    given = Some a -> free_for_reuse refuses w (at_ resolve a) ->
    verdict resolve refuses w given auto_start env (Started (at_ resolve a))
| v_unavailable : forall a, ~ served w (at_ resolve (meant given env)) -> may_start given auto_start env ->
    given = Some a -> ~ free_for_reuse refuses w (at_ resolve a) ->
    verdict resolve refuses w given auto_start env Unavailable
| v_anywhere : forall p, ~ served w (at_ resolve (meant given env)) -> may_start given auto_start env ->
    given = None -> lowest_free refuses w "127.0.0.1"%string (env_server_start env) p ->
    verdict resolve refuses w given auto_start env (Started ("127.0.0.1"%string, p))
| v_nowhere : ~ served w (at_ resolve (meant given env)) -> may_start given auto_start env ->
    given = None -> none_free refuses w "127.0.0.1"%string (env_server_start env) ->
    verdict resolve refuses w given auto_start env NoFreePorts.

(** Ports a user may give: 1 to 65535 (0 asks the system for any port). *)
Definition port_ok (p : N) : Prop := 0 < p <= 65535.
