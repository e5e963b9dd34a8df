(* What "wired to exactly the upstream publishers" means. *)

From Coq Require Import String List Relations.
From Verif Require Import Dict DagModel DagSpec ServerModel RoutingModel.
Import ListNotations.

(** Connected clients. *)
Definition live_sub (s : server) (i : nat) (t : topic) : Prop := In (i, CSub t) (s_clients s).
Definition live_pub (s : server) (p : nat) (t : topic) : Prop := In (p, CPub t) (s_clients s).

(** The topic reaches the other one (or is it). *)
Definition reaches (s : server) (t u : topic) : Prop := t = u \/ path (s_dag s) t u.

(** The last list sent (or computed) for subscriber [i]. *)
Definition last_for (i : nat) (l : list (nat * list nat)) : option (list nat) :=
  option_map snd (find (fun p => Nat.eqb (fst p) i) (rev l)).

(** [pubs] names exactly those live publishers whose topic reaches [t]. *)
Definition exact_for (s : server) (t : topic) (pubs : list nat) : Prop :=
  forall p tp, live_pub s p tp -> (In p pubs <-> reaches s tp t).

(** No notification is under way. *)
Definition quiet (n : net) : Prop := n_tasks n = [].

(** Every live subscriber's last update is exact. *)
Definition all_wired (n : net) : Prop :=
  forall i t, live_sub (n_srv n) i t ->
    exists pubs, last_for i (n_written n) = Some pubs /\ exact_for (n_srv n) t pubs.

(** Commands that cause notifications came only while none was under way. *)
Inductive calm (slimit tlimit : nat) : net -> Prop :=
| calm_new : calm slimit tlimit (new_net slimit tlimit)
| calm_step n a n' r : calm slimit tlimit n -> nstep n a = Some (n', r) ->
    (forall l, a = NCmd l -> takes_lock l = true -> quiet n) ->
    calm slimit tlimit n'.

(** A step of a session that changes the graph. *)
Definition session_edge_command (a : nlabel) : Prop :=
  exists sid, a = NCmd (LSessClear sid) \/ a = NCmd (LSessGone sid) \/
    exists f t, a = NCmd (LSessConnect sid f t) \/ a = NCmd (LSessDisconnect sid f t).
