(* Property C95: the graph snapshot and the queries built on it tell the truth. *)

From Coq Require Import String List Arith Bool Lia.
From Verif Require Import Dict DagModel DagSpec EventLogModel ServerModel ServerSpec ServerProofs ServerProps
  QueryModel QuerySpec QueryProofs.
Import ListNotations.

(** The snapshot's graph, its owners and its sessions agree with one another and with
    the commands the server accepted: an edge is shown iff somebody connected it and
    has not taken it back; its owners are exactly those; a session is shown with
    exactly the edges it holds; and every session named as an owner is shown. *)
Theorem C95_snapshot_edges :
  forall (sl tl : nat) (s : server) (h : hist), run sl tl s h ->
  let sn := snapshot s in
  (forall f t, edge_in (sn_graph sn) f t <-> exists o, holds_edge h f t o) /\
  (forall f t, edge_in (sn_graph sn) f t -> exists os, In ((f, t), os) (sn_owners sn)) /\
  (forall f t os, In ((f, t), os) (sn_owners sn) ->
     NoDup os /\ forall o, In o os <-> holds_edge h f t o) /\
  (forall sid es md, In (sid, (es, md)) (sn_sess sn) ->
     forall f t, In (f, t) es <-> holds_edge h f t (Some sid)) /\
  (forall f t sid, holds_edge h f t (Some sid) ->
     exists es md, In (sid, (es, md)) (sn_sess sn) /\ In (f, t) es).
Proof.
  intros sl tl s h R sn. split; [|split; [|split; [|split]]].
  - intros f t. now apply (snapshot_graph sl tl).
  - intros f t. now apply (snapshot_owned sl tl s h).
  - intros f t os. now apply (snapshot_owners sl tl).
  - intros sid es md K f t. now apply (snapshot_session sl tl s h sid es md).
  - intros f t sid. now apply (snapshot_owner_listed sl tl).
Qed.
Print Assumptions C95_snapshot_edges.

(** Sessions and processes are shown once, with the metadata they registered; no unit
    is shown in two processes. *)
Theorem C95_snapshot_clients :
  forall (sl tl : nat) (s : server) (h : hist), run sl tl s h -> well_keyed h ->
  let sn := snapshot s in
  NoDup (map fst (sn_sess sn)) /\ NoDup (map fst (sn_procs sn)) /\
  (forall sid md, (exists es, In (sid, (es, Some md)) (sn_sess sn)) <-> registered h sid md) /\
  (forall p u, (exists us, In (p, us) (sn_procs sn) /\ In u us) <-> owns_unit s p u) /\
  (forall p q us vs u, In (p, us) (sn_procs sn) -> In (q, vs) (sn_procs sn) ->
     In u us -> In u vs -> p = q /\ us = vs).
Proof.
  intros sl tl s h R W sn. split; [|split; [|split; [|split]]].
  - apply sess_nodup. eapply CInv_run; eauto.
  - apply procs_nodup. eapply CInv_run; eauto.
  - intros sid md. now apply (sess_reg sl tl).
  - intros p u. unfold owns_unit. split; intros [us [A B]]; exists us; (split; [now apply procs_in|exact B]).
  - intros p q us vs u. now apply (snapshot_units sl tl s h).
Qed.
Print Assumptions C95_snapshot_clients.

(** The settings topic a context resolves is the one the component's registered
    description gives; it is refused iff no description gives one; and the error
    about conflicting descriptions cannot occur. *)
Theorem C95_settings_topic :
  forall (sl tl : nat) (s : server) (h : hist) (dyn : comp -> option topic) (a : addr),
  run sl tl s h -> well_keyed h ->
  (forall t, settings_input_topic dyn (snapshot s) a = Found t <-> exposes dyn h a t) /\
  (settings_input_topic dyn (snapshot s) a = NotExposed <-> forall t, ~ exposes dyn h a t) /\
  settings_input_topic dyn (snapshot s) a <> Conflicting.
Proof.
  intros sl tl s h dyn a R W. pose proof (topic_cases sl tl s h dyn a R W) as K.
  destruct (settings_input_topic dyn (snapshot s) a) as [t0| |]; [| destruct K|].
  - split; [|split; [|discriminate]].
    + intros t. split; [now intros [= <-]|]. intros E. f_equal. eapply exposes_one; eauto.
    + split; [discriminate|]. intros N. now apply N in K.
  - split; [|split; [|discriminate]].
    + intros t. split; [discriminate|]. intros E. now apply K in E.
    + now split.
Qed.
Print Assumptions C95_settings_topic.

(** The error of a refused registration names the requested components that another
    session describes when the error is made up; if nothing happened since the refusal
    there is at least one. *)
Theorem C95_collisions_named :
  forall (sl tl : nat) (s : server) (h : hist) (own : nat) (md : metadata), run sl tl s h ->
  (forall a, In a (named_collisions own md (snapshot s)) <->
     In a (map fst md) /\ exists q, q <> own /\ describes s q a) /\
  (forall s' w, step s (LSessRegister own md) = Some (s', RpError, w) ->
     exists a, In a (named_collisions own md (snapshot s'))).
Proof.
  intros sl tl s h own md R. split; [intros a; apply named_spec|].
  intros s' w E. exact (proj2 (named_now sl tl s h own md s' w R E)).
Qed.
Print Assumptions C95_collisions_named.

(** Every profile that profiling_snapshot_all returns for a process was sent, during
    the call, by the process that owned one of its units when it was asked. *)
Theorem C95_profiles_answered :
  forall (good : nat -> bool) (sl tl : nat) (s0 : server) (h0 : hist) (s : server) (h : hist) (c : caller),
  run sl tl s0 h0 -> calls good s0 h0 s h c ->
  forall p q b, get p (c_out c) = Some (q, b) ->
  good b = true /\ exists us u req s1, In (p, us) (sn_procs (snapshot s0)) /\ In u us /\
    asked_since sl tl h0 h req u s1 /\ owns_unit s1 q u /\ In (LProcResponse q req b, RpNone) h.
Proof. intros good sl tl s0 h0 s h c R H p q b. now apply (profile_entry sl tl good s0 h0 s h c). Qed.
Print Assumptions C95_profiles_answered.

(** If no process came, changed its units or went during the call, the profile is
    that of the process it is returned for. *)
Theorem C95_profiles_own :
  forall (good : nat -> bool) (sl tl : nat) (s0 : server) (h0 : hist) (s : server) (h : hist) (c : caller),
  run sl tl s0 h0 -> calls good s0 h0 s h c -> processes_unchanged h0 h ->
  forall p q b, get p (c_out c) = Some (q, b) -> q = p.
Proof. intros good sl tl s0 h0 s h c R H U p q b. now apply (profile_own sl tl good s0 h0 s h c). Qed.
Print Assumptions C95_profiles_own.

(** When the call returns, every process that had units was asked through one of them,
    the request has its answer, and the process is in the result iff the answer is a
    profile (unless the session itself raised). *)
Theorem C95_profiles_complete :
  forall (good : nat -> bool) (sl tl : nat) (s0 : server) (h0 : hist) (s : server) (h : hist)
    (out : list (nat * (nat * nat))) (raised : list nat),
  run sl tl s0 h0 -> calls good s0 h0 s h (mkCaller [] None out raised) ->
  forall p us, In (p, us) (sn_procs (snapshot s0)) -> us <> [] -> ~ In p raised ->
  exists u req s1 r, In u us /\ asked_since sl tl h0 h req u s1 /\ answers_to s req = [r] /\
    forall q b, get p out = Some (q, b) <-> r = RespFrom q b /\ good b = true.
Proof. intros good sl tl s0 h0 s h out ra R H p us. now apply (profile_all sl tl good s0 h0 s h out ra). Qed.
Print Assumptions C95_profiles_complete.

(* ---- concrete cases ---- *)

Local Open Scope string_scope.
Local Open Scope nat_scope.
Local Open Scope list_scope.

(** What a caller does between and among the commands of others. *)
Inductive move := MOther (l : label) | MSkip | MAsk (ok : bool) | MReply | MRaise.

Definition move1 (good : nat -> bool) (s : server) (h : hist) (c : caller) (m : move)
  : option (server * hist * caller) :=
  match m, c_wait c, c_todo c with
  | MOther l, _, _ =>
      match step s l with Some (s', r, _) => Some (s', h ++ [(l, r)], c) | None => None end
  | MSkip, None, (p, []) :: rest => Some (s, h, mkCaller rest None (c_out c) (c_raised c))
  | MAsk ok, None, (p, u :: us) :: rest =>
      match step s (LRoute u ok) with
      | Some (s', RpId q, _) =>
          Some (s', h ++ [(LRoute u ok, RpId q)], mkCaller rest (Some (p, q)) (c_out c) (c_raised c))
      | _ => None
      end
  | MReply, Some (p, q), _ =>
      match answers_to s q with [r] => Some (s, h, take good p r c) | _ => None end
  | MRaise, Some (p, q), todo => Some (s, h, mkCaller todo None (c_out c) (p :: c_raised c))
  | _, _, _ => None
  end.
Fixpoint moves (good : nat -> bool) (s : server) (h : hist) (c : caller) (ms : list move)
  : option (server * hist * caller) :=
  match ms with
  | [] => Some (s, h, c)
  | m :: r => match move1 good s h c m with Some (s', h', c') => moves good s' h' c' r | None => None end
  end.

Lemma moves_calls good s0 h0 ms : forall s h c s' h' c', calls good s0 h0 s h c ->
  moves good s h c ms = Some (s', h', c') -> calls good s0 h0 s' h' c'.
Proof.
  induction ms as [|m ms IH]; intros s h c s' h' c' H E; cbn [moves] in E; [now injection E as <- <- <-|].
  destruct (move1 good s h c m) as [[[s1 h1] c1]|] eqn:M; [|discriminate].
  apply (IH s1 h1 c1); [|exact E]. clear E IH. destruct c as [todo wait out ra]. unfold move1 in M.
  cbn [c_wait c_todo c_out c_raised] in M.
  destruct m as [l| |ok| |].
  - destruct (step s l) as [[[s2 r] w]|] eqn:S; [|discriminate]. injection M as <- <- <-.
    eapply cl_other; eauto.
  - destruct wait; [discriminate|]. destruct todo as [|[p [|u us]] rest]; try discriminate.
    injection M as <- <- <-. now apply cl_skip with (p := p).
  - destruct wait; [discriminate|]. destruct todo as [|[p [|u us]] rest]; try discriminate.
    destruct (step s (LRoute u ok)) as [[[s2 r] w]|] eqn:S; [|discriminate].
    destruct r; try discriminate. injection M as <- <- <-. eapply cl_ask; eauto.
  - destruct wait as [[p q]|]; [|discriminate].
    destruct (answers_to s q) as [|r [|]] eqn:A; try discriminate. injection M as <- <- <-.
    now apply (cl_reply good s0 h0 s h (mkCaller todo (Some (p, q)) out ra) p q r).
  - destruct wait as [[p q]|]; [|discriminate]. injection M as <- <- <-. now apply cl_raise with (q := q).
Qed.

(** The demo's server (ServerProps.v) with two more processes: 3 owns W, 4 nothing. *)
Definition more : list label := [LProcess; LProcess; LProcRegister 3 ["W"]].
Definition qs : server := match exec demo_state demo_hist more with Some (s, _) => s | None => demo_state end.
Definition qh : hist := match exec demo_state demo_hist more with Some (_, h) => h | None => [] end.
Lemma q_run : run 8 8 qs qh.
Proof. apply (exec_run 8 8 more demo_state demo_hist); [exact demo_run|]. vm_compute. reflexivity. Qed.
Lemma q_hist : qh = demo_hist ++ [(LProcess, RpId 3); (LProcess, RpId 4); (LProcRegister 3 ["W"], RpComplete)].
Proof. vm_compute. reflexivity. Qed.
Lemma q_keyed : well_keyed qh.
Proof.
  rewrite q_hist. pose proof demo_keyed as W. revert W. generalize demo_hist. intros h W sid md r K.
  apply in_app_or in K as [K|K]; [exact (W sid md r K)|].
  destruct K as [K|[K|[K|[]]]]; discriminate K.
Qed.

(** U's dynamic settings are on topic "U/SET"; V has none. *)
Definition dyn1 (c : comp) : option topic := if eqd (cm_addr c) "U" then Some "U/SET" else None.

(** A response body is a profile unless it is 0. *)
Definition good1 (b : nat) : bool := negb (Nat.eqb b 0).

(** Session 1's refused registration names V; the topic of U is found; of the three
    processes 2 answers, 3 is too late and 4 has no unit. *)
Example C95_case :
  run 8 8 qs qh /\ well_keyed qh /\
  settings_input_topic dyn1 (snapshot qs) "U" = Found "U/SET" /\
  settings_input_topic dyn1 (snapshot qs) "V" = NotExposed /\
  named_collisions 1 (comps [("V", 9); ("Z", 1)]) (snapshot qs) = ["V"] /\
  sn_procs (snapshot qs) = [(2, ["U"]); (3, ["W"]); (4, [])] /\
  (exists s' w, step qs (LSessRegister 1 (comps [("V", 9); ("Z", 1)])) = Some (s', RpError, w)) /\
  exists s h, calls good1 qs qh s h (mkCaller [] None [(2, (2, 70))] []) /\ processes_unchanged qh h.
Proof.
  split; [exact q_run|]. split; [exact q_keyed|].
  split; [vm_compute; reflexivity|]. split; [vm_compute; reflexivity|].
  split; [vm_compute; reflexivity|]. split; [vm_compute; reflexivity|].
  split; [eexists _, _; vm_compute; reflexivity|].
  destruct (moves good1 qs qh (start (snapshot qs))
     [MAsk true; MOther (LProcResponse 2 5 70); MOther (LAnswer 5); MReply;
      MAsk true; MOther (LTimeoutFires 6); MOther (LTimeoutAnswer 6); MReply; MSkip])
    as [[[s h] c]|] eqn:E; [|vm_compute in E; discriminate].
  assert (Ec : c = mkCaller [] None [(2, (2, 70))] []).
  { apply (f_equal (fun o => match o with Some (_, _, c0) => c0 | None => start (snapshot qs) end)) in E.
    vm_compute in E. now symmetry. }
  assert (Eh : (fun o => match o with Some (_, h1, _) => h1 | None => [] end) (moves good1 qs qh (start (snapshot qs))
     [MAsk true; MOther (LProcResponse 2 5 70); MOther (LAnswer 5); MReply;
      MAsk true; MOther (LTimeoutFires 6); MOther (LTimeoutAnswer 6); MReply; MSkip]) = qh ++ [(LRoute "U" true, RpId 5); (LProcResponse 2 5 70, RpNone); (LAnswer 5, RpNone);
                          (LRoute "W" true, RpId 6); (LTimeoutFires 6, RpNone); (LTimeoutAnswer 6, RpNone)])
    by (vm_compute; reflexivity).
  rewrite E in Eh. cbn beta iota in Eh.
  exists s, h. split.
  - rewrite <- Ec. eapply moves_calls; [apply cl_start|exact E].
  - rewrite Eh. eexists. split; [reflexivity|]. intros l r K. cbn in K.
    repeat (destruct K as [K|K]; [injection K as <- <-; exact Logic.I|]). destruct K.
Qed.

(** C95 finding: a profile can be returned for a process that did not send it.  The
    process is asked through one of its units; if it is restarted between the
    snapshot and the request, the new process owns the unit, answers, and its
    profile is filed under the old process's id. *)
Theorem C95_profiles_own_refuted :
  ~ (forall (good : nat -> bool) (sl tl : nat) (s0 : server) (h0 : hist) (s : server) (h : hist) (c : caller),
      run sl tl s0 h0 -> calls good s0 h0 s h c ->
      forall p q b, get p (c_out c) = Some (q, b) -> q = p).
Proof.
  intros H.
  destruct (moves good1 qs qh (start (snapshot qs))
     [MOther (LProcGone 2); MOther (LProcRegister 4 ["U"]);
      MAsk true; MOther (LProcResponse 4 5 70); MOther (LAnswer 5); MReply])
    as [[[s h] c]|] eqn:E; [|vm_compute in E; discriminate].
  assert (Ec : get 2 (c_out c) = Some (4, 70)).
  { apply (f_equal (fun o => match o with Some (_, _, c0) => get 2 (c_out c0) | None => None end)) in E.
    vm_compute in E. now symmetry. }
  specialize (H good1 8 8 qs qh s h c q_run (moves_calls _ _ _ _ _ _ _ _ _ _ (cl_start good1 qs qh) E) 2 4 70 Ec).
  discriminate H.
Qed.
Print Assumptions C95_profiles_own_refuted.

(** C95 finding: the error of a refused registration may name no component, or only
    components that were free when the server refused, because it is made up from
    a later snapshot: here session 0, which described V, has cleared itself and a
    new session has registered Z in between. *)
Theorem C95_collisions_blamed_refuted :
  ~ (forall (sl tl : nat) (s : server) (h : hist) (own : nat) (md : metadata) (s1 : server) (w : list work)
       (mid : hist) (s2 : server),
      run sl tl s h -> step s (LSessRegister own md) = Some (s1, RpError, w) ->
      run sl tl s2 (h ++ (LSessRegister own md, RpError) :: mid) ->
      forall a, In a (named_collisions own md (snapshot s2)) -> exists q, q <> own /\ describes s q a).
Proof.
  intros H. set (md := comps [("V", 9); ("Z", 1)]).
  destruct (exec qs qh [LSessRegister 1 md; LSession; LSessClear 0; LSessRegister 5 (comps [("Z", 3)])])
    as [[s2 h2]|] eqn:E; [|vm_compute in E; discriminate].
  destruct (step qs (LSessRegister 1 md)) as [[[s1 r] w]|] eqn:S; [|vm_compute in S; discriminate].
  assert (Er : r = RpError).
  { apply (f_equal (fun o => match o with Some (_, r0, _) => r0 | None => RpNone end)) in S.
    vm_compute in S. now symmetry. }
  subst r.
  assert (Eh : (fun o => match o with Some (_, h1) => h1 | None => [] end) (exec qs qh [LSessRegister 1 md; LSession; LSessClear 0; LSessRegister 5 (comps [("Z", 3)])]) = qh ++ (LSessRegister 1 md, RpError) ::
     [(LSession, RpId 5); (LSessClear 0, RpComplete); (LSessRegister 5 (comps [("Z", 3)]), RpComplete)])
    by (vm_compute; reflexivity).
  rewrite E in Eh. cbn beta iota in Eh.
  assert (R2 : run 8 8 s2 h2) by (eapply exec_run; [exact q_run|exact E]).
  rewrite Eh in R2.
  assert (N : (fun o => match o with Some (s3, _) => named_collisions 1 md (snapshot s3) | None => [] end) (exec qs qh [LSessRegister 1 md; LSession; LSessClear 0; LSessRegister 5 (comps [("Z", 3)])]) = ["Z"])
    by (vm_compute; reflexivity).
  rewrite E in N. cbn beta iota in N.
  destruct (H 8 8 qs qh 1 md s1 w _ s2 q_run S R2 "Z") as [q [_ [es [m [A B]]]]].
  { rewrite N. now left. }
  vm_compute in A. repeat (destruct A as [A|A]; [try discriminate A; injection A as <- <- <-; vm_compute in B;
    intuition discriminate|]). destruct A.
Qed.
Print Assumptions C95_collisions_blamed_refuted.
