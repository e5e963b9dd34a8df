(* What the properties of the graph server mean, read off the history of
   commands and replies: who owns an edge, which metadata a session has
   registered, which settings value a process has reported. *)

From Coq Require Import String List.
From Verif Require Import Dict DagModel EventLogModel ServerModel.
Import ListNotations.

Notation hist := (list (label * reply)).

(** [P] happened in the history and nothing that ends it ([K]) happened since. *)
Definition since {E : Type} (h : list E) (P K : E -> Prop) : Prop :=
  exists before e after, h = before ++ e :: after /\ P e /\ forall x, In x after -> ~ K x.

(** Session [sid] has registered [md]: the server accepted it, and the session has
    not registered something else, cleared itself or gone away since. *)
Definition ends_registration (sid : nat) (ev : label * reply) : Prop :=
  (exists md, ev = (LSessRegister sid md, RpComplete)) \/
  fst ev = LSessClear sid \/ fst ev = LSessGone sid.
Definition registered (h : hist) (sid : nat) (md : metadata) : Prop :=
  since h (eq (LSessRegister sid md, RpComplete)) (ends_registration sid).

(** Process [p] is the latest to have reported settings for component [a], with
    value [v], and has not disconnected since. *)
Definition ends_report (a : addr) (p : nat) (ev : label * reply) : Prop :=
  (exists q w, ev = (LProcSettings q a w, RpComplete)) \/ fst ev = LProcGone p.
Definition reported (h : hist) (a : addr) (p : nat) (v : value) : Prop :=
  since h (eq (LProcSettings p a v, RpComplete)) (ends_report a p).

(** Session [sid] declares initial value [v] for component [a]. *)
Definition declared (h : hist) (sid : nat) (a : addr) (v : value) : Prop :=
  exists md c, registered h sid md /\ get a md = Some c /\ cm_init c = v.

(** Owner [o] (a session, or nobody in particular: a persistent edge) has
    connected f to t and has not taken it back since. *)
Definition connects (f t : topic) (o : owner) (ev : label * reply) : Prop :=
  match o with
  | None => ev = (LConnect f t, RpComplete)
  | Some sid => ev = (LSessConnect sid f t, RpComplete)
  end.
Definition takes_back (f t : topic) (o : owner) (ev : label * reply) : Prop :=
  match o with
  | None => fst ev = LDisconnect f t
  | Some sid => fst ev = LSessDisconnect sid f t \/ fst ev = LSessClear sid \/ fst ev = LSessGone sid
  end.
Definition holds_edge (h : hist) (f t : topic) (o : owner) : Prop :=
  since h (connects f t o) (takes_back f t o).

(** The owners the server lists for an edge. *)
Definition listed_owner (s : server) (f t : topic) (o : owner) : Prop :=
  In o (getd (f, t) [] (d_owners (s_dag s))).

(** A live process owns a unit; a live session describes a component. *)
Definition owns_unit (s : server) (p : nat) (u : addr) : Prop :=
  exists us, In (p, CProc us) (s_clients s) /\ In u us.
Definition describes (s : server) (sid : nat) (a : addr) : Prop :=
  exists es md, In (sid, CSess es (Some md)) (s_clients s) /\ In a (map fst md).

(** Component metadata as the backend builds it (backend.py:614-619): a dict from
    each component's address to that component. *)
Definition keyed (md : metadata) : Prop :=
  NoDup (map fst md) /\ forall a c, In (a, c) md -> cm_addr c = a.
Definition well_keyed (h : hist) : Prop :=
  forall sid md r, In (LSessRegister sid md, r) h -> keyed md.

(** The value of the last settings event about [a] in a list of events. *)
Definition about (a : addr) (e : nat * sev) : bool := eqd (se_addr (snd e)) a.
Definition last_event_value (a : addr) (l : list (nat * sev)) : option value :=
  option_map (fun e => se_value (snd e)) (find (about a) (rev l)).


(** A routed request is waiting for its answer; the answers given to it. *)
Definition waits (s : server) (req : nat) : Prop := In req (map fst (s_fut s)).
Definition answers_to (s : server) (req : nat) : list response :=
  map snd (filter (fun p => eqd (fst p) req) (s_answers s)).

(** Request [req] was issued for unit [u] when the server was in state [s0], and
    its write to the owning process succeeded or failed ([ok]). *)
Definition routed (sl tl : nat) (h : hist) (req : nat) (u : addr) (ok : bool) (s0 : server) : Prop :=
  exists before after, h = before ++ (LRoute u ok, RpId req) :: after /\ run sl tl s0 before.

(** What an answer to [req] says about what happened. *)
Definition justified (sl tl : nat) (h : hist) (req : nat) (r : response) : Prop :=
  match r with
  | RespFrom p body => exists u s0, routed sl tl h req u true s0 /\ owns_unit s0 p u /\
                         In (LProcResponse p req body, RpNone) h
  | RespUnroutable => exists u ok s0, routed sl tl h req u ok s0 /\ forall p, ~ owns_unit s0 p u
  | RespWriteFailed => exists u s0, routed sl tl h req u false s0
  | RespTimeout => exists u s0, routed sl tl h req u true s0 /\ In (LTimeoutFires req, RpNone) h
  | RespGone => exists u s0 p, routed sl tl h req u true s0 /\ owns_unit s0 p u /\
                  In (LProcGone p, RpNone) h
  | RespInvalid => exists u s0 p q body, routed sl tl h req u true s0 /\ owns_unit s0 p u /\
                     p <> q /\ In (LProcResponse q req body, RpNone) h
  end.

(** Whenever a session registered a component, no process was reporting settings
    for it. *)
Definition registers_before_reports (h : hist) : Prop :=
  forall before sid md after a p v,
    h = before ++ (LSessRegister sid md, RpComplete) :: after ->
    In a (map fst md) -> ~ reported before a p v.
