(** C101: the round-trip benchmark. *)
From Coq Require Import String Ascii.
From Coq Require Import List Arith NArith ZArith QArith Bool Lia Permutation Sorted.
From Verif Require Import CodecModel AddressModel CmdModel CmdProofs PerfModel PerfSpec PerfProofs TransportModel HotModel HotSpec HotProofs.
Import ListNotations.
Local Open Scope nat_scope.

(** The cases are those asked for, each once if nothing is named twice, in the order of their names, which tell them apart. *)
Theorem C101_cases : forall apis transports sizes nb,
  (forall c, In c (build_cases apis transports sizes nb) <-> asked apis transports sizes nb c) /\
  StronglySorted before (build_cases apis transports sizes nb) /\
  (NoDup apis -> NoDup transports -> NoDup sizes -> NoDup (build_cases apis transports sizes nb)) /\
  (forall c d, asked apis transports sizes nb c -> asked apis transports sizes nb d -> case_id c = case_id d -> c = d).
Proof.
  intros apis transports sizes nb. split; [intros c; apply build_in|]. split; [apply sorted_before, build_sorted|]. split; [apply build_nodup|].
  intros c d C D. apply id_inj; unfold asked in C, D; unfold fine; tauto.
Qed.
Print Assumptions C101_cases.

(** Whatever the order in which the cases are run, there is one result per case, in the order of the names; each is of as many samples as asked for. *)
Theorem C101_results : forall w count warmup samples apis transports sizes nb quiet ev rs, (forall l, Permutation l (shuffle w l)) ->
  suite w count warmup samples apis transports sizes nb quiet = (ev, Some rs) ->
  map of_case rs = build_cases apis transports sizes nb /\
  (forall x, In x rs -> length (taken x) = Z.to_nat samples /\ summarize (taken x) count = Some (figures x)) /\
  (NoDup apis -> NoDup transports -> NoDup sizes -> forall c, asked apis transports sizes nb c -> samples_of c ev = Z.to_nat samples).
Proof. exact suite_cases. Qed.
Print Assumptions C101_results.

(** In a sample every message is received before the next is sent; the clock is read after the warm-up and after the last one, with
    the messages asked for in between; and no case is measured on the fast path within the process when it is of another transport. *)
Theorem C101_sample : forall w count warmup samples apis transports sizes nb quiet ev r c ops,
  suite w count warmup samples apis transports sizes nb quiet = (ev, r) -> In (Sampled c ops) ev ->
  (exists a b, ops = a ++ [Clock] ++ b ++ [Clock] /\ one_by_one a (Z.to_nat warmup) /\ one_by_one b (Z.to_nat count)) /\
  (forall b, allow_local (publisher_args (supports w) c) = Some b -> (b = true <-> transport c = text "local")) /\
  (transport c <> text "local" -> allow_local (publisher_args (supports w) c) = Some false) /\
  (force_tcp (publisher_args (supports w) c) = true <-> transport c = text "tcp") /\
  pub_buffers (publisher_args (supports w) c) = buffers c.
Proof.
  intros w count warmup samples apis transports sizes nb quiet ev r c ops H I. destruct (suite_valid _ _ _ _ _ _ _ _ _ _ _ _ _ H I) as [-> V].
  split; [do 2 eexists; split; [reflexivity|]; split; apply rounds_one|]. unfold publisher_args. cbn [allow_local force_tcp pub_buffers].
  split; [|split; [|split; [apply str_eqb_eq|reflexivity]]].
  - intros b E. destruct (supports w); [|discriminate]. injection E as <-. apply str_eqb_eq.
  - intros N. destruct V as [V|V]; [contradiction|]. rewrite V. f_equal. apply not_true_iff_false. intros E. now apply str_eqb_eq in E.
Qed.
Print Assumptions C101_sample.

(** Where shared memory works, the messages of a case go the way that its name says, whatever the environment. *)
Theorem C101_way : forall tcp_env local_env pid c,
  let sent := broadcast_actions (publisher_of tcp_env local_env pid (publisher_args true c)) [{| ch_pid := pid; ch_shm_ok := true |}] in
  (transport c = text "local" -> sent = [PutLocal]) /\ (transport c = text "shm" -> sent = [SendShm 0]) /\ (transport c = text "tcp" -> sent = [SendTcp 0]).
Proof.
  intros tcp_env local_env pid c. cbv zeta. unfold publisher_args, publisher_of, broadcast_actions, frames, can_deliver_via_shm, can_deliver_locally, cfg_allow_local, cfg_force_tcp.
  cbn [opt_force_tcp opt_allow_local env_force_tcp env_allow_local pub_pid ch_pid ch_shm_ok force_tcp allow_local existsb]. rewrite Nat.eqb_refl.
  split; [|split]; intros ->; reflexivity.
Qed.
Print Assumptions C101_way.

(** C101 finding: where the channel has no shared memory the cases "local" and "shm" are measured over TCP, under their names. *)
Theorem C101_way_refuted : exists c, transport c = text "local" /\ asked [text "async"] [text "local"] [64%Z] 1 c /\
  broadcast_actions (publisher_of None None 7 (publisher_args true c)) [{| ch_pid := 7; ch_shm_ok := false |}] = [SendTcp 0].
Proof. exists (mkCase (text "async") (text "local") 64 1). split; [reflexivity|]. split; [unfold asked; cbn; tauto|vm_compute; reflexivity]. Qed.
Print Assumptions C101_way_refuted.

(** However the suite ends, the server that it started is stopped, last of all, and the log is at the level it was at; with --quiet every
    sample is taken at WARNING. *)
Theorem C101_clean : forall w count warmup samples apis transports sizes nb quiet ev r,
  suite w count warmup samples apis transports sizes nb quiet = (ev, r) ->
  (ev = [] /\ r = None /\ server_starts w = false) \/
  (exists mid, ev = ServerStarted :: mid ++ [ServerStopped] /\ ~ In ServerStarted mid /\ ~ In ServerStopped mid /\ level_after (level w) ev = level w /\
   (forall a c ops b, ev = a ++ Sampled c ops :: b -> level_after (level w) a = if quiet then 30%Z else level w)).
Proof. exact suite_clean. Qed.
Print Assumptions C101_clean.

(** The figures of a case: median, mean, least and greatest of the samples, in that relation; the time per message is the time per sample
    scaled; for an odd number of samples the median rate is that of the median sample. *)
Theorem C101_figures : forall l count, (0 < count)%Z -> l <> [] -> (forall x, In x l -> (0 < x)%Q) -> exists s, summarize l count = Some s /\
  n_samples s = length l /\ is_median (sec_median s) l /\ is_mean (sec_mean s) l /\
  (In (sec_min s) l /\ forall x, In x l -> (sec_min s <= x)%Q) /\ (In (sec_max s) l /\ forall x, In x l -> (x <= sec_max s)%Q) /\
  (sec_min s <= sec_median s <= sec_max s)%Q /\ (sec_min s <= sec_mean s <= sec_max s)%Q /\
  (us_median s == sec_median s / inject_Z count * 1000000)%Q /\ (us_mean s == sec_mean s / inject_Z count * 1000000)%Q /\
  (Nat.odd (length l) = true -> (rate_median s * sec_median s == inject_Z count)%Q) /\ is_mean (rate_mean s) (map (fun x => inject_Z count / x)%Q l).
Proof. intros l count. apply summarized. Qed.
Print Assumptions C101_figures.

(** C101 finding: with an even number of samples the two figures printed beside each other, time per message and messages per second,
    contradict each other: samples of 1 and 3 seconds for one message give 2 s per message and 2/3 (not 1/2) messages per second. *)
Theorem C101_rate_refuted : ~ (forall l count s, (0 < count)%Z -> (forall x, In x l -> (0 < x)%Q) -> summarize l count = Some s ->
  (rate_median s * us_median s == 1000000)%Q).
Proof.
  intros H. destruct (summarize [1; 3]%Q 1) as [s|] eqn:E; [|vm_compute in E; discriminate E].
  specialize (H [1; 3]%Q 1%Z s eq_refl ltac:(intros x [<-|[<-|[]]]; reflexivity) E). vm_compute in E. injection E as <-. vm_compute in H. discriminate H.
Qed.
Print Assumptions C101_rate_refuted.

(** C101 finding: the cases are not in the order of the payload sizes: 4096 comes before 64, as text. *)
Theorem C101_sizes_refuted : ~ (forall apis transports sizes nb, StronglySorted Z.le (map payload (build_cases apis [transports] sizes nb)) \/ length apis <> 1).
Proof.
  intros H. destruct (H [text "async"] (text "local") [64; 4096]%Z 1%Z) as [K|K]; [|now apply K]. vm_compute in K.
  inversion K as [|? ? _ F]; subst. inversion F as [|? ? L _]; subst. now apply L.
Qed.
Print Assumptions C101_sizes_refuted.

Definition quick : world := {| shuffle := @rev case; server_starts := true; supports := true; elapsed := fun k _ => Some (inject_Z (Z.of_nat k + 1)); level := 20 |}.

(** C101 finding: without messages (--count 0) the suite fails with a ZeroDivisionError after all the samples of a case have been taken, and
    with --samples 0 with a StatisticsError after the server was started: neither is refused beforehand. *)
Theorem C101_nothing_refuted : exists c, asked [text "async"] [text "local"] [64%Z] 1 c /\
  (exists ev, suite quick 0 0 2 [text "async"] [text "local"] [64%Z] 1 false = (ev, None) /\ samples_of c ev = 2) /\
  suite quick 1 0 0 [text "async"] [text "local"] [64%Z] 1 false = ([ServerStarted; ServerStopped], None).
Proof.
  exists (mkCase (text "async") (text "local") 64 1). split; [unfold asked; cbn; tauto|].
  split; [eexists; split; vm_compute; reflexivity|vm_compute; reflexivity].
Qed.
Print Assumptions C101_nothing_refuted.

(** Two APIs, two transports, two sizes, run in reverse: eight results in the order of the names, with three samples each; three samples of 1, 2
    and 6 seconds of ten messages. *)
Example C101_case :
  (exists ev rs, suite quick 10 2 3 [text "sync"; text "async"; text "other"] [text "tcp"; text "local"] [64; 4096]%Z 1 true = (ev, Some rs) /\
     map (fun r => payload (of_case r)) rs = [4096; 64; 4096; 64; 4096; 64; 4096; 64]%Z /\ map (fun r => length (taken r)) rs = repeat 3 8 /\
     (forall c, In c (map of_case rs) -> samples_of c ev = 3) /\ length ev = 28 /\ map api (map of_case (firstn 5 rs)) = [text "async"; text "async"; text "async"; text "async"; text "sync"]) /\
  (exists s, summarize [6; 1; 2]%Q 10 = Some s /\ (sec_median s == 2)%Q /\ (sec_mean s == 3)%Q /\ (sec_min s == 1)%Q /\ (sec_max s == 6)%Q /\
     (us_median s == 200000)%Q /\ (rate_median s == 5)%Q) /\
  (forall l, Permutation l (shuffle quick l)) /\
  (exists ev, suite {| shuffle := fun l => l; server_starts := true; supports := false; elapsed := elapsed quick; level := 20 |}
      10 2 3 [text "async"] [text "local"; text "tcp"] [64]%Z 1 true = (ev, None) /\ length ev = 7).
Proof.
  split; [|split; [|split; [intros l; apply Permutation_rev|eexists; split; vm_compute; reflexivity]]].
  - do 2 eexists. split; [vm_compute; reflexivity|]. split; [vm_compute; reflexivity|]. split; [vm_compute; reflexivity|]. split; [|split; vm_compute; reflexivity].
    intros c I. cbn [map of_case] in I. repeat (destruct I as [<-|I]; [vm_compute; reflexivity|]). destruct I.
  - eexists. split; [vm_compute; reflexivity|]. vm_compute. repeat split; reflexivity.
Qed.
