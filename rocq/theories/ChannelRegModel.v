(* Model of the process-wide registry of channels, channelmanager.py:23-129 (ChannelManager), with
   the client table of a channel, messagechannel.py:425-467.

   A key is a pair of graph server address and publisher.  Channel.create talks to the graph server
   and the publisher, so a registration that creates a channel is suspended there: it is a Register
   step followed, some steps later, by a Created or a CreateFailed step.  What a channel does with
   messages is in the Cache, Backpressure and PubSub models and left out here. *)

From Coq Require Import List Arith Bool.
From Verif Require Import Dict.
Import ListNotations.

Section Model.
Context {K C : Type} `{Dec K} `{Dec C}.

(** messagechannel.py:95: the clients of a channel; whether it still runs (created 195-206, cancelled by
    close, 208-215). *)
Record chan := Chan { ch_key : K; ch_clients : list C; ch_open : bool }.

Record mgr := Mgr {
  registry : list (K * nat);            (* 30-32 *)
  chans : list (nat * chan);            (* every channel object made *)
  next : nat;
  pending : list (K * C)                (* registrations suspended in Channel.create *)
}.

Definition init : mgr := Mgr [] [] 0 [].

Inductive op :=
| Register (k : K) (c : C)
| Created (k : K) (c : C)
| CreateFailed (k : K) (c : C)
| Unregister (k : K) (c : C).

Inductive answer :=
| Joined (n : nat)       (* the channel returned *)
| Suspended
| Failed                 (* the exception of Channel.create *)
| KeyError
| Left                   (* others still use the channel *)
| Closed (n : nat)       (* channel n was closed *)
| Ignored.               (* no such suspended registration *)

(** messagechannel.py:441 *)
Definition add_client (c : C) (ch : chan) : chan := Chan (ch_key ch) (sadd c (ch_clients ch)) (ch_open ch).

Definition step (o : op) (s : mgr) : mgr * answer :=
  match o with
  | Register k c =>                                                                   (* 89-98 *)
      match get k (registry s) with
      | Some n =>
          match get n (chans s) with
          | Some ch => (Mgr (registry s) (put n (add_client c ch) (chans s)) (next s) (pending s), Joined n)
          | None => (s, KeyError)
          end
      | None => (Mgr (registry s) (chans s) (next s) (pending s ++ [(k, c)]), Suspended)
      end
  | Created k c =>                                                                    (* 93-98 *)
      if mem (k, c) (pending s) then
        let n := next s in
        (Mgr (put k n (registry s)) (put n (add_client c (Chan k [] true)) (chans s)) (S n) (sdel (k, c) (pending s)), Joined n)
      else (s, Ignored)
  | CreateFailed k c =>
      if mem (k, c) (pending s) then (Mgr (registry s) (chans s) (next s) (sdel (k, c) (pending s)), Failed)
      else (s, Ignored)
  | Unregister k c =>                                                                 (* 114-129 *)
      match get k (registry s) with
      | None => (s, KeyError)
      | Some n =>
          match get n (chans s) with
          | None => (s, KeyError)
          | Some ch =>
              if mem c (ch_clients ch) then                            (* messagechannel.py:452, 467 *)
                let cs := sdel c (ch_clients ch) in
                match cs with
                | [] => (Mgr (del k (registry s)) (put n (Chan (ch_key ch) [] false) (chans s)) (next s) (pending s), Closed n)
                | _ => (Mgr (registry s) (put n (Chan (ch_key ch) cs (ch_open ch)) (chans s)) (next s) (pending s), Left)
                end
              else (s, KeyError)
          end
      end
  end.

(** A history, newest first, and what each step answered. *)
Fixpoint after (h : list op) : mgr * list (op * answer) :=
  match h with
  | [] => (init, [])
  | o :: h => let (s, tr) := after h in let (s', a) := step o s in (s', (o, a) :: tr)
  end.

End Model.

Arguments op : clear implicits.
Arguments mgr : clear implicits.
Arguments chan : clear implicits.
