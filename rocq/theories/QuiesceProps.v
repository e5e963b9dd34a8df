(* C84: pause(), sync() and resume() of a running pipeline. *)

From Coq Require Import List Arith Bool Lia.
From Verif Require Import Dict QuiesceModel QuiesceSpec QuiesceProofs QuiesceEndProofs.
Import ListNotations.

(** When sync() has returned, nothing moves: every publisher is paused, no message is on its way and
    no task handles one or has one to take; and it stays so until somebody resumes.  Provided that no
    broadcast was waiting for a buffer when its publisher was told. *)
Theorem C84_sync_quiesces cfg before_it s0 i s1 ls s2 : pipeline cfg ->
  steps cfg init before_it = Some s0 -> get i (s_calls s0) = Some SYNC -> step cfg s0 (Serve i) = Some s1 ->
  throughout cfg (fun s l => ~ resumes s l /\ ~ interrupts s l) s1 ls -> steps cfg s1 ls = Some s2 ->
  In i (s_synced s2) -> quiet cfg s2.
Proof.
  intros PL H0 C H1 T H2 I. pose proof (Good_steps cfg _ _ _ (Good_init cfg) H0) as G0. pose proof (Good_step cfg _ _ _ G0 H1) as G1.
  apply (Safe_quiet cfg PL i s2); [exact (Good_steps cfg _ _ _ G1 H2)|exact (Safe_steps cfg i ls s1 s2 G1 (Safe_serve cfg i s0 s1 C H1) T H2)|exact I].
Qed.
Print Assumptions C84_sync_quiesces.

(** A paused publisher publishes nothing until it is resumed, whatever the tasks do: provided no
    broadcast is past the gate, and no RESUME is on its way to it. *)
Theorem C84_pause_holds cfg ls : forall s s' p,
  s_run s p = false -> (forall t, ~ waits_on s t p) -> ~ In RESUME (s_inbox s p) ->
  throughout cfg (fun s l => ~ resumes s l) s ls -> steps cfg s ls = Some s' -> s_sent s' p = s_sent s p /\ s_run s' p = false.
Proof.
  induction ls as [|l ls IH]; intros s s' p R W N T H; cbn in H, T; [injection H as <-; auto|]. destruct (step cfg s l) as [s1|] eqn:E; [|discriminate]. destruct T as [NR T].
  destruct (paused_step cfg s l s1 p (conj R (conj W N)) NR E) as (R1 & W1 & N1). destruct (IH s1 s' p R1 W1 N1 (T s1 eq_refl) H) as [A B]. split; [|exact B].
  rewrite A. clear - R W E. destruct l; cbn in E; try (injection E as <-; reflexivity).
  - destruct (s_task s t); [|discriminate]. destruct (c_src cfg t); [discriminate|]. destruct (mem t (c_tasks cfg)); [|discriminate]. now injection E as <-.
  - destruct (s_task s t); [|discriminate]. destruct (s_queue s t); [discriminate|]. now injection E as <-.
  - destruct (s_task s t) as [|m [|q todo] [|]]; try discriminate. destruct (s_run s q) eqn:Rq; [|discriminate]. destruct (available cfg q s); injection E as <-; cbn; [|reflexivity]. apply upd_neq. congruence.
  - destruct (s_task s t) as [|m [|q todo] [|]] eqn:Et; try discriminate. destruct (available cfg q s); [|discriminate]. injection E as <-. cbn. apply upd_neq. intros ->. apply (W t). exists m, todo. exact Et.
  - destruct (s_task s t) as [|[m|] [|q todo] w]; try discriminate; [destruct (c_src cfg t) as [p0|]; [|discriminate]|]; now injection E as <-.
  - destruct (s_lock s); [discriminate|]. destruct (get i (s_calls s)) as [[]|]; [| | |discriminate]; now injection E as <-.
  - destruct (s_lock s) as [[[j [|q rest]] [c|]]|]; try discriminate. now injection E as <-.
  - destruct (s_lock s) as [[[j [|q rest]] [c|]]|]; try discriminate. now injection E as <-.
  - destruct (s_drain s p0); [|discriminate|discriminate]. destruct (s_inbox s p0) as [|[] r]; [discriminate| | |]; now injection E as <-.
  - destruct (s_drain s p0); [discriminate|discriminate|]. destruct (s_lock s) as [[[j rest] [q|]]|]; [destruct (q =? p0)| |]; now injection E as <-.
Qed.
Print Assumptions C84_pause_holds.

(** pause() reaches every publisher: once it has read what the server wrote, it is paused. *)
Theorem C84_pause_reaches cfg s0 i s1 ls s2 : get i (s_calls s0) = Some PAUSE -> step cfg s0 (Serve i) = Some s1 ->
  throughout cfg (fun s l => ~ resumes s l) s1 ls -> steps cfg s1 ls = Some s2 ->
  forall p, In p (c_pubs cfg) -> s_inbox s2 p = [] -> s_run s2 p = false.
Proof.
  intros C H1 T H2 p I E. assert (P1 : Pau p s1).
  { cbn in H1. destruct (s_lock s0); [discriminate|]. rewrite C in H1. injection H1 as <-. left. cbn. apply mem_In in I. rewrite I. exists (s_inbox s0 p), []. split; [reflexivity|intros []]. }
  destruct (Pau_steps cfg p ls s1 s2 P1 T H2) as [(a & c & X & _)|[X _]]; [rewrite E in X; destruct a; discriminate|exact X].
Qed.
Print Assumptions C84_pause_reaches.

(** If every task publishes on publishers that were registered after the one it is subscribed to, and
    no sync() is taken up while a publisher is paused, every sync() is answered: once the
    pipeline has come to rest, nothing is left with the server. *)
Theorem C84_sync_returns cfg before_it s0 ls s2 : pipeline cfg -> upstream_first cfg ->
  throughout cfg (fun s l => ~ syncs_paused cfg s l /\ ~ local_pause l) init (before_it ++ Call SYNC :: ls) ->
  steps cfg init before_it = Some s0 -> steps cfg init (before_it ++ Call SYNC :: ls) = Some s2 -> at_rest cfg s2 ->
  In (s_next s0) (s_synced s2) /\ forall i, ~ pending s2 i.
Proof.
  intros PL UF T H0 H AR. pose proof (Good_steps cfg _ _ _ (Good_init cfg) H0) as G0. pose proof (Good_steps cfg _ _ _ (Good_init cfg) H) as G2.
  assert (R : Ready s2) by (refine (Ready_steps cfg PL _ init s2 (Good_init cfg) _ T H); intros i rest cur; discriminate).
  destruct (rest_unlocked cfg PL s2 UF G2 R AR) as [L C]. split.
  - assert (X : exists s1, step cfg s0 (Call SYNC) = Some s1 /\ steps cfg s1 ls = Some s2).
    { clear - H0 H. revert H0 H. generalize init. induction before_it as [|l b IH]; intros s H0 H; cbn in *; [injection H0 as <-; eauto|]. destruct (step cfg s l); [|discriminate]. exact (IH _ H0 H). }
    destruct X as (s1 & E1 & E2). assert (A : Alive (s_next s0) s1).
    { cbn in E1. injection E1 as <-. left. cbn. rewrite <- put_absent; [apply get_put_eq|]. intros I. destruct (f_calls _ (g_fresh _ _ G0) _ I). lia. }
    destruct (Alive_steps cfg (s_next s0) ls s1 s2 (Good_step cfg _ _ _ G0 E1) A E2) as [A'|[(rest & cur & A')|A']]; [rewrite C in A'; discriminate|congruence|exact A'].
  - intros i [A|(rest & cur & A)]; [rewrite C in A; now apply A|congruence].
Qed.
Print Assumptions C84_sync_returns.

(** After resume() everything that was held up goes on: once the pipeline has come to rest
    and nobody has paused it since, all publishers run, no message is on its way, and every task is
    done with what it had. *)
Theorem C84_resume_releases cfg before_it s0 i s1 ls s2 : pipeline cfg -> upstream_first cfg ->
  steps cfg init before_it = Some s0 -> get i (s_calls s0) = Some RESUME -> step cfg s0 (Serve i) = Some s1 ->
  throughout cfg (fun s l => ~ stops s l) s1 ls -> steps cfg s1 ls = Some s2 -> at_rest cfg s2 ->
  (forall p, In p (c_pubs cfg) -> s_run s2 p = true) /\ (forall p, ~ in_flight s2 p) /\ forall t, s_queue s2 t = [] /\ s_task s2 t = Idle.
Proof.
  intros PL UF H0 C H1 T H2 AR. pose proof (Good_steps cfg _ _ _ (Good_init cfg) H0) as G0. pose proof (Good_step cfg _ _ _ G0 H1) as G1. pose proof (Good_steps cfg _ _ _ G1 H2) as G2.
  assert (R1 : Res cfg s1).
  { cbn in H1. destruct (s_lock s0) eqn:L; [discriminate|]. rewrite C in H1. injection H1 as <-. split; [exact L|]. intros p I. left. cbn. apply mem_In in I. rewrite I. eauto. }
  pose proof (Res_steps cfg ls s1 s2 G1 R1 T H2) as R2. pose proof (Res_rest cfg s2 G2 R2 AR) as R. split; [exact R|]. exact (rest_running cfg PL s2 UF G2 AR R).
Qed.
Print Assumptions C84_resume_releases.

(** Nothing is lost or made twice by pausing: when every task is done, on each publisher as many
    messages have been published as its tasks publish per message, times what they were given. *)
Theorem C84_nothing_lost cfg ls s : pipeline cfg -> steps cfg init ls = Some s -> (forall t, s_queue s t = [] /\ s_task s t = Idle) ->
  forall q, s_sent s q = total (fun t => count_occ Nat.eq_dec (c_outs cfg t) q * given cfg s ls t) (c_tasks cfg).
Proof. intros PL. exact (nothing_lost cfg PL ls s). Qed.
Print Assumptions C84_nothing_lost.

(** It does come to rest: left alone, it takes a bounded number of steps, and there is a way. *)
Theorem C84_comes_to_rest cfg ls s : pipeline cfg -> upstream_first cfg -> steps cfg init ls = Some s ->
  (exists n, forall own s', forallb by_itself own = true -> steps cfg s own = Some s' -> length own <= n) /\
  (exists own s', forallb by_itself own = true /\ steps cfg s own = Some s' /\ at_rest cfg s').
Proof.
  intros PL UF H. pose proof (Good_steps cfg _ _ _ (Good_init cfg) H) as G. split.
  - exists (cost cfg s). intros own s' F E. exact (bounded cfg PL UF own s s' G F E).
  - exact (comes_to_rest cfg PL UF (cost cfg s) s G (le_n _)).
Qed.
Print Assumptions C84_comes_to_rest.

(* ---- findings ---- *)

(** Tasks: 0 publishes on 0; 1 is subscribed to 0 and publishes on 1; 2 is subscribed to 1. *)
Definition chain (pubs : list nat) : config :=
  mkConfig pubs (fun _ => 2) [0; 1; 2] (fun t => match t with 1 => Some 0 | 2 => Some 1 | _ => None end) (fun t => match t with 0 => [0] | 1 => [1] | _ => [] end).

Lemma chain_pipeline pubs : pubs = [0; 1] \/ pubs = [1; 0] -> pipeline (chain pubs).
Proof.
  intros P. assert (N : NoDup pubs /\ In 0 pubs /\ In 1 pubs).
  { destruct P as [-> | ->]; cbn; (split; [|tauto]); repeat constructor; cbn; intuition discriminate. }
  destruct N as (N & I0 & I1). split; [exact N|]. split; [repeat constructor; cbn; intuition discriminate|]. split; [|split].
  - intros t p _. cbn. destruct t as [|[|[|t]]]; try discriminate; intros [= <-]; assumption.
  - intros t q _. cbn. destruct t as [|[|[|t]]]; cbn; [intros [<-|[]]; exact I0|intros [<-|[]]; exact I1|intros []|intros []].
  - intros p _. cbn. lia.
Qed.

Lemma chain_upstream : upstream_first (chain [0; 1]).
Proof.
  intros t p q _. cbn. destruct t as [|[|[|t]]]; cbn; try discriminate; intros [= <-]; [intros [<-|[]]|intros []]. exists [], [1]. split; [reflexivity|now left].
Qed.

(** What "for ever" means: no call that waits is ever taken up, and the sync() is never answered. *)
Definition for_ever (cfg : config) (i : nat) (s : state) (except : label) : Prop :=
  forall ls s', ~ In except ls -> steps cfg s ls = Some s' ->
    (exists rest cur, s_lock s' = Some (i, rest, cur)) /\ ~ In i (s_synced s') /\
    forall j c, get j (s_calls s) = Some c -> get j (s_calls s') = Some c.

Lemma stuck_for_ever cfg i p m t q s : stuck i p m t q s -> ~ In i (s_synced s) -> for_ever cfg i s (LocalResume q).
Proof.
  intros S N ls s' NL H. destruct (stuck_steps cfg i p m t q ls s s' S NL H) as (((rest & L) & _) & C & Y).
  split; [eauto|]. split; [now rewrite Y|]. intros j c G. rewrite C; [exact G|congruence].
Qed.

(** C84 finding: if a publisher downstream was registered before the one upstream of it (the order in
    which the units happen to start decides), sync() asks it to pause first; the task in between then
    cannot get rid of its message, the publisher upstream never drains, the server waits for it under
    its command lock, and the resume() that could help is never taken up. *)
Theorem C84_order_deadlocks_refuted :
  exists ls s, pipeline (chain [1; 0]) /\ steps (chain [1; 0]) init ls = Some s /\
    throughout (chain [1; 0]) (fun s l => ~ syncs_paused (chain [1; 0]) s l /\ ~ local_pause l /\ ~ interrupts s l) init ls /\
    get 1 (s_calls s) = Some RESUME /\ for_ever (chain [1; 0]) 0 s (LocalResume 1).
Proof.
  exists [Begin 0; Publish 0; Done 0; Call SYNC; Serve 0; Tell; Hear 1; Drained 1; Tell; Hear 0; Take 1; Call RESUME].
  let r := eval vm_compute in (steps (chain [1; 0]) init [Begin 0; Publish 0; Done 0; Call SYNC; Serve 0; Tell; Hear 1; Drained 1; Tell; Hear 0; Take 1; Call RESUME]) in
  match r with Some ?s => exists s end.
  split; [apply chain_pipeline; now right|]. split; [vm_compute; reflexivity|]. split; [|split; [reflexivity|]].
  - repeat (split; [split; [|split]; [intros X|intros X|intros X]|intros ? E; vm_compute in E; injection E as <-]); try exact I; try exact X; try (destruct X as [_ [t (m & todo & X)]]; destruct t as [|[|[|t]]]; vm_compute in X; discriminate).
    destruct X as [_ (p & Ip & [X|X])]; [destruct Ip as [<-|[<-|[]]]; vm_compute in X; discriminate|]. apply X. reflexivity.
  - apply (stuck_for_ever _ 0 0 0 1 1).
    + split; [eexists; reflexivity|]. split; [reflexivity|]. split; [now left|]. split; [eexists; reflexivity|]. split; [reflexivity|]. intros X. vm_compute in X. exact X.
    + intros [].
Qed.
Print Assumptions C84_order_deadlocks_refuted.

(** C84 finding: pause() followed by sync() ("stop, then wait until everything in flight is done") can
    block the server for ever, whatever the order of registration: a task holding a message cannot
    publish what it made of it, since its publisher is paused already. *)
Theorem C84_pause_then_sync_refuted :
  exists ls s, pipeline (chain [0; 1]) /\ upstream_first (chain [0; 1]) /\ steps (chain [0; 1]) init ls = Some s /\
    throughout (chain [0; 1]) (fun s l => ~ local_pause l /\ ~ interrupts s l) init ls /\
    get 2 (s_calls s) = Some RESUME /\ for_ever (chain [0; 1]) 1 s (LocalResume 1).
Proof.
  exists [Begin 0; Publish 0; Done 0; Call PAUSE; Call SYNC; Serve 0; Serve 1; Hear 0; Hear 1; Take 1; Tell; Hear 0; Call RESUME].
  let r := eval vm_compute in (steps (chain [0; 1]) init [Begin 0; Publish 0; Done 0; Call PAUSE; Call SYNC; Serve 0; Serve 1; Hear 0; Hear 1; Take 1; Tell; Hear 0; Call RESUME]) in
  match r with Some ?s => exists s end.
  split; [apply chain_pipeline; now left|]. split; [exact chain_upstream|]. split; [vm_compute; reflexivity|]. split; [|split; [reflexivity|]].
  - repeat (split; [split; [intros X|intros X]|intros ? E; vm_compute in E; injection E as <-]); try exact I; try exact X; destruct X as [_ [t (m & todo & X)]]; destruct t as [|[|[|t]]]; vm_compute in X; discriminate.
  - apply (stuck_for_ever _ 1 0 0 1 1).
    + split; [eexists; reflexivity|]. split; [reflexivity|]. split; [now left|]. split; [eexists; reflexivity|]. split; [reflexivity|]. intros X. vm_compute in X. exact X.
    + intros [].
Qed.
Print Assumptions C84_pause_then_sync_refuted.

(** C84 finding: a broadcast that is waiting for a buffer when sync() comes has passed the gate
    already; the release sync() waits for lets it go on as well.  sync() returns, and a message that
    was not there before is on its way although every publisher is paused. *)
Theorem C84_waiting_broadcast_refuted :
  exists cfg ls s, pipeline cfg /\ upstream_first cfg /\ steps cfg init ls = Some s /\
    throughout cfg (fun s l => ~ resumes s l /\ ~ syncs_paused cfg s l /\ ~ local_pause l) init ls /\
    In 0 (s_synced s) /\ (forall p, In p (c_pubs cfg) -> s_run s p = false) /\ exists p, In p (c_pubs cfg) /\ in_flight s p.
Proof.
  set (cfg := mkConfig [0] (fun _ => 1) [0; 1] (fun t => match t with 1 => Some 0 | _ => None end) (fun t => match t with 0 => [0; 0] | _ => [] end)).
  exists cfg, [Begin 0; Publish 0; Publish 0; Call SYNC; Serve 0; Tell; Hear 0; Take 1; Done 1; Wake 0; Drained 0; Finish].
  let r := eval vm_compute in (steps cfg init [Begin 0; Publish 0; Publish 0; Call SYNC; Serve 0; Tell; Hear 0; Take 1; Done 1; Wake 0; Drained 0; Finish]) in
  match r with Some ?s => exists s end.
  split. { split; [repeat constructor; cbn; tauto|]. split; [repeat constructor; cbn; intuition discriminate|]. split; [|split].
    - intros t p _. destruct t as [|[|t]]; cbn; try discriminate. intros [= <-]. now left.
    - intros t q _. destruct t as [|[|t]]; cbn; [tauto|tauto|tauto].
    - intros p _. cbn. lia. }
  split. { intros t p q _. destruct t as [|[|t]]; cbn; try discriminate. intros _ []. }
  split; [vm_compute; reflexivity|]. split; [|split; [now left|split; [intros p [<-|[]]; reflexivity|]]].
  - repeat (split; [split; [|split]; [intros X|intros X|intros X]|intros ? E; vm_compute in E; injection E as <-]); try exact I; try exact X; try discriminate X.
    destruct X as [_ (p & Ip & [X|X])]; [destruct Ip as [<-|[]]; vm_compute in X; discriminate|]. apply X. reflexivity.
  - exists 0. split; [now left|]. exists 1, 1. now left.
Qed.
Print Assumptions C84_waiting_broadcast_refuted.

(** A concrete case: two messages are under way in the chain when sync() is called; they are handled,
    the sync() is answered, the pipeline is quiet; after resume() a third message goes through. *)
Example C84_case : exists ls0 s0 s1 ls s2 more s3,
  steps (chain [0; 1]) init ls0 = Some s0 /\ get 0 (s_calls s0) = Some SYNC /\ step (chain [0; 1]) s0 (Serve 0) = Some s1 /\ in_flight s1 0 /\ s_task s1 1 <> Idle /\
  steps (chain [0; 1]) s1 ls = Some s2 /\ throughout (chain [0; 1]) (fun s l => ~ resumes s l /\ ~ interrupts s l) s1 ls /\ In 0 (s_synced s2) /\ quiet (chain [0; 1]) s2 /\ s_sent s2 1 = 2 /\
  steps (chain [0; 1]) s2 more = Some s3 /\ s_sent s3 0 = 3 /\ s_sent s3 1 = 3 /\ s_held s3 = [].
Proof.
  exists [Begin 0; Publish 0; Done 0; Take 1; Begin 0; Publish 0; Done 0; Begin 0; Call SYNC].
  let r := eval vm_compute in (steps (chain [0; 1]) init [Begin 0; Publish 0; Done 0; Take 1; Begin 0; Publish 0; Done 0; Begin 0; Call SYNC]) in
  match r with Some ?s => exists s; let r1 := eval vm_compute in (step (chain [0; 1]) s (Serve 0)) in
    match r1 with Some ?s1 => exists s1, [Tell; Hear 0; Publish 1; Done 1; Take 1; Publish 1; Done 1; Take 2; Drained 0; Tell; Hear 1; Done 2; Take 2; Done 2; Drained 1; Finish];
      let r2 := eval vm_compute in (steps (chain [0; 1]) s1 [Tell; Hear 0; Publish 1; Done 1; Take 1; Publish 1; Done 1; Take 2; Drained 0; Tell; Hear 1; Done 2; Take 2; Done 2; Drained 1; Finish]) in
      match r2 with Some ?s2 => exists s2, [Call RESUME; Serve 1; Hear 0; Hear 1; Publish 0; Done 0; Take 1; Publish 1; Done 1; Take 2; Done 2];
        let r3 := eval vm_compute in (steps (chain [0; 1]) s2 [Call RESUME; Serve 1; Hear 0; Hear 1; Publish 0; Done 0; Take 1; Publish 1; Done 1; Take 2; Done 2]) in
        match r3 with Some ?s3 => exists s3 end end end end.
  split; [vm_compute; reflexivity|]. split; [reflexivity|]. split; [vm_compute; reflexivity|]. split; [exists 0, 1; now left|]. split; [discriminate|].
  split; [vm_compute; reflexivity|]. split.
  { repeat (split; [split; [intros X|intros X]|intros ? E; vm_compute in E; injection E as <-]); try exact I; try exact X; destruct X as [_ [t (m & todo & X)]]; destruct t as [|[|[|t]]]; vm_compute in X; discriminate. }
  split; [now left|]. split.
  { split; [intros p [<-|[<-|[]]]; (split; [reflexivity|]); intros (m & t & [])|]. intros t p [<-|[<-|[<-|[]]]]; cbn; try discriminate; intros _; split; reflexivity. }
  split; [reflexivity|]. split; [vm_compute; reflexivity|]. split; [reflexivity|]. split; reflexivity.
Qed.

(** The hypotheses of C84_sync_returns and C84_resume_releases are met by the same run. *)
Example C84_case_rest : exists ls s2 s3,
  throughout (chain [0; 1]) (fun s l => ~ syncs_paused (chain [0; 1]) s l /\ ~ local_pause l) init ([Begin 0; Publish 0; Done 0; Take 1] ++ Call SYNC :: ls) /\
  steps (chain [0; 1]) init ([Begin 0; Publish 0; Done 0; Take 1] ++ Call SYNC :: ls) = Some s2 /\ at_rest (chain [0; 1]) s2 /\ s_synced s2 = [0] /\
  steps (chain [0; 1]) s2 [Begin 0; Call RESUME; Serve 1; Hear 0; Hear 1; Publish 0; Done 0; Take 1; Publish 1; Done 1; Take 2; Done 2] = Some s3 /\ at_rest (chain [0; 1]) s3.
Proof.
  exists [Serve 0; Tell; Hear 0; Publish 1; Done 1; Drained 0; Tell; Hear 1; Take 2; Done 2; Drained 1; Finish].
  let r2 := eval vm_compute in (steps (chain [0; 1]) init ([Begin 0; Publish 0; Done 0; Take 1] ++ Call SYNC :: [Serve 0; Tell; Hear 0; Publish 1; Done 1; Drained 0; Tell; Hear 1; Take 2; Done 2; Drained 1; Finish])) in
  match r2 with Some ?s2 => exists s2;
    let r3 := eval vm_compute in (steps (chain [0; 1]) s2 [Begin 0; Call RESUME; Serve 1; Hear 0; Hear 1; Publish 0; Done 0; Take 1; Publish 1; Done 1; Take 2; Done 2]) in
    match r3 with Some ?s3 => exists s3 end end.
  split.
  { cbn [app]. repeat (split; [split; [intros X|intros X]|intros ? E; vm_compute in E; injection E as <-]); try exact I; try exact X.
    destruct X as [_ (p & Ip & [X|X])]; [destruct Ip as [<-|[<-|[]]]; vm_compute in X; discriminate|]. apply X. reflexivity. }
  split; [vm_compute; reflexivity|]. split.
  { intros l B. destruct l; try discriminate B; try reflexivity; try (destruct t as [|[|[|t]]]; reflexivity); destruct p as [|[|p]]; reflexivity. }
  split; [reflexivity|]. split; [vm_compute; reflexivity|].
  intros l B. destruct l; try discriminate B; try reflexivity; try (destruct t as [|[|[|t]]]; reflexivity); destruct p as [|[|p]]; reflexivity.
Qed.
