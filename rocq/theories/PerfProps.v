(* C96: the benchmark command runs the tests it is asked for, in the networks it names,
   and the figures it logs and reports are those of the messages that arrived. *)

From Coq Require Import List Arith ZArith QArith Bool Lia Permutation Sorted.
From Verif Require Import Dict PerfModel PerfSpec PerfProofs.
Import ListNotations.
Local Open Scope nat_scope.

(* ---- networks ---- *)

(** A relay test sends every message through every relay, in order, and in no other way. *)
Theorem C96_relay n l :
  (walk (connections Relay n) (Source :: l) /\ last (Source :: l) Source = Sink) <->
  l = map Client (seq 0 n) ++ [Sink].
Proof.
  split.
  - intros [W La]. now apply relay_walk.
  - intros ->. split; [apply relay_walk_exists|]. rewrite app_comm_cons. apply last_last.
Qed.
Print Assumptions C96_relay.

(** A fan-out test has one sender and sends to the sink and to every client; a fan-in
    test has one receiver, and the source and every client send to it. *)
Theorem C96_fan n x y :
  (In (x, y) (connections Fanout n) <-> x = Source /\ (y = Sink \/ exists i, i < n /\ y = Client i)) /\
  (In (x, y) (connections Fanin n) <-> y = Sink /\ (x = Source \/ exists i, i < n /\ x = Client i)).
Proof. split; [apply fanout_edges|apply fanin_edges]. Qed.
Print Assumptions C96_fan.

(** The sink waits for as many messages as all the nodes messages start from send, unless
    one of them runs out of time. *)
Theorem C96_expected c n num origins : NoDup origins ->
  (forall x, In x origins <-> origin (connections c n) x) ->
  length (concat (map (fun _ => source (fun _ => false) num) origins)) = expected c n num.
Proof.
  intros ND H.
  assert (L : forall m, length (source (fun _ => false) m) = m).
  { intros m. destruct (source_from_spec (fun _ => false) m 0) as [k [_ [E [_ [K|K]]]]]; [|discriminate K].
    unfold source. rewrite E, seq_length. exact K. }
  assert (C : length (concat (map (fun _ => source (fun _ => false) num) origins)) = num * length origins).
  { clear ND H. induction origins as [|o l IH]; cbn; [lia|]. rewrite app_length, IH, L. lia. }
  rewrite C. clear C.
  assert (P : Permutation origins (match c with Fanin => Source :: map Client (seq 0 n) | _ => [Source] end)).
  { apply NoDup_Permutation; [exact ND| |].
    - destruct c; [|repeat constructor; intros []|repeat constructor; intros []].
      constructor; [intros K; apply in_map_iff in K as [i [E _]]; discriminate|].
      apply FinFun.Injective_map_NoDup; [intros i j E; now injection E|apply seq_NoDup].
    - intros x. rewrite H. unfold origin. destruct c.
      + split.
        * intros [[y E] _]. apply fanin_edges in E as [_ [->|[i [Li ->]]]]; [now left|]. right. apply in_map, in_seq. lia.
        * intros K. split; [exists Sink; apply fanin_edges; split; [reflexivity|]|intros [y E]; apply fanin_edges in E as [-> _]].
          -- destruct K as [<-|K]; [now left|]. apply in_map_iff in K as [i [<- K]]. apply in_seq in K. right. exists i. split; [lia|reflexivity].
          -- destruct K as [K|K]; [discriminate|]. apply in_map_iff in K as [i [E _]]. discriminate.
      + split.
        * intros [[y E] _]. apply fanout_edges in E as [-> _]. now left.
        * intros [<-|[]]. split; [exists Sink; apply fanout_edges; auto|].
          intros [y E]. apply fanout_edges in E as [_ [E|[i [_ E]]]]; discriminate.
      + split.
        * intros [[y E] N]. apply relay_edges in E as [[_ [-> _]]|[L0 [[-> _]|[[i [Li [-> _]]]|[-> _]]]]]; [now left|now left| |].
          -- exfalso. apply N. destruct i as [|i]; [exists Source|exists (Client i)]; apply relay_edges; right; (split; [lia|]).
             ++ now left.
             ++ right; left. exists i. repeat split. lia.
          -- exfalso. apply N. destruct (n - 1) as [|i] eqn:En; [exists Source|exists (Client i)]; apply relay_edges; right; (split; [lia|]).
             ++ now left.
             ++ right; left. exists i. repeat split. lia.
        * intros [<-|[]]. split.
          -- destruct n as [|n]; [exists Sink|exists (Client 0)]; apply relay_edges; [now left|]. right. split; [lia|now left].
          -- intros [y E]. apply relay_edges in E as [[_ [_ E]]|[_ [[_ E]|[[i [_ [_ E]]]|[_ E]]]]]; discriminate. }
  rewrite (Permutation_length P). destruct c; cbn [expected length]; rewrite ?map_length, ?seq_length; lia.
Qed.
Print Assumptions C96_expected.

(** A source sends the messages 0, 1, 2, ... up to the number asked for, or up to the
    one it has no time left for. *)
Theorem C96_source late num : exists k, k <= num /\ source late num = seq 0 k /\
  (forall j, j < k -> late j = false) /\ (k < num -> late k = true).
Proof.
  destruct (source_from_spec late num 0) as [k [A [B [C D]]]]. exists k. split; [exact A|]. split; [exact B|].
  split; [intros j J; apply C; lia|]. intros K. destruct D as [D|D]; [lia|exact D].
Qed.
Print Assumptions C96_source.

(** The sink ends the test by itself exactly if as many messages arrive as it waits for;
    what it has then are the first of them. *)
Theorem C96_sink want arriving : 0 < want ->
  sink want [] arriving = (firstn want arriving, want <=? length arriving).
Proof.
  intros L. destruct (sink_spec want arriving [] L) as [[A B]|[A B]]; rewrite B; cbn [length app] in *; f_equal.
  - symmetry. apply firstn_all2. lia.
  - symmetry. apply Nat.leb_gt. lia.
  - now rewrite Nat.sub_0_r.
  - symmetry. apply Nat.leb_le. lia.
Qed.
Print Assumptions C96_sink.

(** C96 finding: a benchmark of no messages never ends by itself: its sink waits for its
    zeroth message until the time-out, in every test. *)
Theorem C96_sink_none_refuted :
  ~ (forall want arriving, want <= length arriving -> snd (sink want [] arriving) = true).
Proof. intros H. specialize (H 0 [] (Nat.le_refl _)). discriminate H. Qed.
Print Assumptions C96_sink_none_refuted.

(** Where the components run: the sink in the caller's process; with local communication
    everything there; with shared memory or TCP everything else in one other process;
    spread, everything in a process of its own.  TCP is forced exactly in the TCP tests. *)
Theorem C96_placement m x y :
  place m Sink = 0 /\
  match m with
  | Local => place m x = 0
  | Shm | Tcp => place m x = place m y <-> (x = Sink <-> y = Sink)
  | ShmSpread | TcpSpread => place m x = place m y <-> x = y
  end /\ (force_tcp m = true <-> m = Tcp \/ m = TcpSpread).
Proof.
  split; [now destruct m|]. split.
  - destruct m, x, y; cbn; try reflexivity; split; intros E; try discriminate E; try reflexivity; try congruence;
      try (exfalso; (discriminate (proj1 E eq_refl) || discriminate (proj2 E eq_refl)));
      try (split; intros F; discriminate F).
  - destruct m; cbn; split; intros E; try discriminate E; auto; destruct E as [E|E]; discriminate E.
Qed.
Print Assumptions C96_placement.

(** C96 finding: in a fan-out test over shared memory or TCP the publisher and all its
    clients run in one process; only the messages to the sink cross processes, whatever
    the number of clients. *)
Theorem C96_fanout_clients_refuted :
  ~ (forall m n x y, m <> Local -> In (x, y) (connections Fanout n) -> place m x <> place m y).
Proof.
  intros H. apply (H Shm 1 Source (Client 0)); [discriminate| |reflexivity]. right. now left.
Qed.
Print Assumptions C96_fanout_clients_refuted.

(* ---- figures ---- *)

(** The figures do not depend on the order in which the messages were received. *)
Theorem C96_order size xs ys : Permutation xs ys ->
  calculate_metrics size xs = calculate_metrics size ys /\ dropped xs = dropped ys.
Proof. intros P. split; [now apply metrics_order|now apply dropped_order]. Qed.
Print Assumptions C96_order.

(** What the figures are. *)
Theorem C96_figures size xs m : calculate_metrics size xs = Some m ->
  exists lo hi, spans xs lo hi /\ (lo < hi)%Z /\
  let n := length xs in
  let latencies := map (fun x => (recv x - sent x)%Z) xs in
  num_msgs m = n /\
  (rate_mean m * inject_Z (hi - lo) == inject_Z (Z.of_nat n))%Q /\
  (data_rate m == rate_mean m * inject_Z size)%Q /\
  lat_total m = Z.abs (ztotal latencies) /\
  (lat_mean m * inject_Z (Z.of_nat n) == inject_Z (lat_total m))%Q /\
  In (lat_median m) latencies /\ halves Z.le (lat_median m) latencies /\
  forall ts, Permutation ts (map recv xs) -> StronglySorted Z.le ts ->
    let d := filter (fun z => negb (z =? 0)%Z) (gaps ts) in
    match rate_median m with
    | None => d = []
    | Some r => exists v, is_median v (map inject_Z d) /\ halves Qle v (map inject_Z d) /\ (r * v == 1)%Q /\ (0 < r)%Q
    end.
Proof. apply metrics_some. Qed.
Print Assumptions C96_figures.

(** There are figures exactly if two messages were sent at different times. *)
Theorem C96_no_figures size xs :
  calculate_metrics size xs = None <-> (forall x y, In x xs -> In y xs -> sent x = sent y).
Proof. apply metrics_none. Qed.
Print Assumptions C96_no_figures.

(** C96 finding: a test in which one message arrives has no figures (its run time is
    zero and the division raises): the benchmark stops there. *)
Theorem C96_one_message_refuted : ~ (forall size xs, xs <> [] -> calculate_metrics size xs <> None).
Proof. intros H. apply (H 8%Z [(5%Z, 7%Z, 0)]); [discriminate|]. apply metrics_none. intros x y [<-|[]] [<-|[]]. reflexivity. Qed.
Print Assumptions C96_one_message_refuted.

(** C96 finding: messages sent every [d] have a mean rate above one per [d]: the time of
    the last is not counted. *)
Theorem C96_rate_refuted :
  ~ (forall size xs m d, (0 < d)%Z -> map sent xs = map (fun i => Z.of_nat i * d)%Z (seq 0 (length xs)) ->
     calculate_metrics size xs = Some m -> (rate_mean m * inject_Z d == 1)%Q).
Proof.
  intros H. set (xs := [(0, 1, 0%nat); (10, 11, 1%nat)]%Z).
  assert (E : option_map (fun m => Qred (rate_mean m * inject_Z 10)) (calculate_metrics 8 xs) = Some 2%Q) by (vm_compute; reflexivity).
  destruct (calculate_metrics 8 xs) as [m|] eqn:C; [|discriminate E].
  specialize (H 8%Z xs m 10%Z eq_refl eq_refl C). cbn [option_map] in E.
  assert (E' : Qred (rate_mean m * inject_Z 10) = 2%Q) by congruence.
  rewrite <- Qred_correct, E' in H. discriminate H.
Qed.
Print Assumptions C96_rate_refuted.

(** The number of dropped messages is that of the counters between the smallest and the
    largest received that were never received. *)
Theorem C96_dropped xs lo hi : In lo (map counter xs) -> In hi (map counter xs) ->
  (forall k, In k (map counter xs) -> lo <= k <= hi) ->
  dropped xs = Z.of_nat (length (missing lo hi (map counter xs))).
Proof. apply dropped_spec. Qed.
Print Assumptions C96_dropped.

(** C96 finding: with several sources, a message lost by one is not counted as dropped if
    another's with the same counter arrives. *)
Theorem C96_dropped_fanin_refuted :
  ~ (forall (a b : list sample), map counter a = seq 0 3 -> incl (map counter b) (seq 0 3) ->
     Permutation (map counter (a ++ b)) (seq 0 3 ++ seq 0 3) \/ dropped (a ++ b) <> 0%Z).
Proof.
  intros H.
  destruct (H [(0, 1, 0%nat); (1, 2, 1%nat); (2, 3, 2%nat)]%Z [(0, 1, 0%nat); (2, 3, 2%nat)]%Z) as [P|N].
  - reflexivity.
  - intros x [<-|[<-|[]]]; cbn; auto.
  - apply Permutation_length in P. discriminate P.
  - apply N. vm_compute. reflexivity.
Qed.
Print Assumptions C96_dropped_fanin_refuted.

(* ---- the benchmark ---- *)

(** Every combination is run as often as asked for: in a grid every size with every number
    of clients, otherwise only those at the same place of the two lists. *)
Theorem C96_tests grid sizes clients confs coms iters tests cl sz cm cf :
  Permutation tests (test_list grid sizes clients confs coms iters) ->
  times (cl, sz, cm, cf) tests =
  iters * (if grid then times sz sizes * times cl clients else times (sz, cl) (combine sizes clients))
        * times cf confs * times cm coms.
Proof.
  intros P.
  assert (E : times (cl, sz, cm, cf) tests = times (cl, sz, cm, cf) (test_list grid sizes clients confs coms iters)).
  { unfold times. apply Permutation_length. clear -P. induction P as [|x l l' P IH|x y l|l l' l'' P1 IH1 P2 IH2].
    - constructor.
    - cbn [filter]. destruct (eqd (cl, sz, cm, cf) x); [now apply perm_skip|exact IH].
    - cbn [filter]. destruct (eqd (cl, sz, cm, cf) x), (eqd (cl, sz, cm, cf) y); try apply Permutation_refl. apply perm_swap.
    - etransitivity; eassumption. }
  rewrite E, test_list_times. destruct grid; [rewrite times_prod|]; lia.
Qed.
Print Assumptions C96_tests.

(** The log has a block of entries per repeat: the tests in their order with their results,
    all of them unless the user quits, and then it is the last. *)
Theorem C96_log rest quit result tests repeats : exists blocks,
  benchmark rest quit result tests repeats = log_of blocks /\ length blocks <= repeats /\
  (forall i b, nth_error blocks i = Some b ->
     b = combine (firstn (length b) (map (fun c => (c, rest)) tests)) (map (result i) (seq 0 (length b))) /\
     length b <= length tests /\
     (forall k, k < length b -> quit i k = false) /\
     (length b < length tests -> quit i (length b) = true /\ S i = length blocks)) /\
  (length blocks < repeats -> exists b, nth_error blocks (length blocks - 1) = Some b /\ length b < length tests).
Proof. exact (run_repeats_spec rest quit result tests repeats 0). Qed.
Print Assumptions C96_log.

(* ---- the report ---- *)

(** The report's value for a combination that was tested is the median over the repeats of
    the mean of its results in each; for any other there is none. *)
Theorem C96_report bs c :
  ((forall rest, ~ In (c, rest) (tests_of (concat bs))) -> load_perf (log_of bs) c = None) /\
  (forall rest, In (c, rest) (tests_of (concat bs)) ->
    (forall rest', In (c, rest') (tests_of (concat bs)) -> rest' = rest) ->
    exists v means, load_perf (log_of bs) c = Some v /\
      Forall2 is_mean means (per_repeat (c, rest) bs) /\ is_median v means /\ halves Qle v means).
Proof.
  split; [apply report_none|]. intros rest K U. destruct (report_value bs c rest K U) as [E N].
  exists (median (map mean (per_repeat (c, rest) bs))), (map mean (per_repeat (c, rest) bs)).
  split; [exact E|]. split; [apply means_are; intros r; apply per_repeat_ne|].
  assert (M : map mean (per_repeat (c, rest) bs) <> []) by (destruct (per_repeat (c, rest) bs); [congruence|discriminate]).
  split; [now apply median_is|now apply median_halves].
Qed.
Print Assumptions C96_report.

(** The report of a benchmark nobody quits has a value for each of its tests. *)
Theorem C96_benchmark_reported rest result tests repeats c : 0 < repeats -> In c tests ->
  exists v, load_perf (benchmark rest (fun _ _ => false) result tests repeats) c = Some v.
Proof.
  intros R K. destruct (run_repeats_spec rest (fun _ _ => false) result tests repeats 0) as [bs [A [B [C D]]]].
  unfold benchmark. rewrite A.
  assert (Full : forall i b, nth_error bs i = Some b -> map fst b = map (fun c => (c, rest)) tests).
  { intros i b E. destruct (C i b E) as [F [G [_ H]]].
    assert (L : length b = length tests).
    { destruct (Nat.lt_ge_cases (length b) (length tests)) as [X|X]; [destruct (H X) as [Y _]; discriminate Y|lia]. }
    rewrite F, L, firstn_all2 by (rewrite map_length; lia).
    assert (Q : forall (l : list params) (r : list Q), length l = length r -> map fst (combine l r) = l).
    { induction l as [|x l IH]; intros [|y r] Hl; try discriminate Hl; [reflexivity|]. cbn. f_equal. apply IH. now injection Hl. }
    apply Q. rewrite !map_length, seq_length. reflexivity. }
  assert (All : forall p, In p (map fst (concat bs)) -> snd p = rest).
  { intros p P. rewrite concat_map in P. apply in_concat in P as [l [L P]]. apply in_map_iff in L as [b [<- L]].
    apply In_nth_error in L as [i E]. rewrite (Full i b E) in P. apply in_map_iff in P as [c' [<- _]]. reflexivity. }
  destruct bs as [|b bs].
  { cbn in D. destruct (D R) as [b [E _]]. discriminate E. }
  assert (I1 : In (c, rest) (tests_of (concat (b :: bs)))).
  { unfold tests_of. cbn [concat]. rewrite map_app. apply in_or_app. left. rewrite (Full 0 b eq_refl). now apply (in_map (fun c => (c, rest))). }
  destruct (proj2 (C96_report (b :: bs) c) rest I1) as [v [ms [E _]]]; [|now exists v].
  intros rest' K'. exact (All _ K').
Qed.
Print Assumptions C96_benchmark_reported.

(** C96 finding: logs of tests that differ in the number of messages, the duration or the
    buffers share a place of the report, and the last such test overwrites the others. *)
Theorem C96_report_shared_refuted :
  ~ (forall bs c rest, In (c, rest) (tests_of (concat bs)) ->
     exists v means, load_perf (log_of bs) c = Some v /\ Forall2 is_mean means (per_repeat (c, rest) bs) /\ is_median v means).
Proof.
  intros H. set (c := (1, 8, 0, 0)).
  destruct (H [[((c, (10, 1, 1)), 5%Q); ((c, (20, 1, 1)), 7%Q)]] c (10, 1, 1)) as [v [ms [E [F [_ [s [P [_ M]]]]]]]]; [now left|].
  assert (V : option_map Qred (load_perf (log_of [[((c, (10, 1, 1)), 5%Q); ((c, (20, 1, 1)), 7%Q)]]) c) = Some 7%Q) by (vm_compute; reflexivity).
  rewrite E in V. cbn [option_map] in V. assert (V' : Qred v = 7%Q) by congruence.
  match type of F with Forall2 _ _ ?x => assert (Pr : x = [[5%Q]]) by (vm_compute; reflexivity); rewrite Pr in F end.
  inversion F as [|m l ms' l' [_ Hm] F' E1 E2]; subst. inversion F'; subst.
  apply Permutation_length_1_inv in P. subst s. cbn in M, Hm.
  assert (X : (v == 7)%Q) by (rewrite <- (Qred_correct v), V'; reflexivity).
  rewrite X in M.
  assert (Y : (m == 5)%Q). { rewrite Qmult_1_r in Hm. rewrite Hm. unfold qtotal. cbn. ring. }
  rewrite Y in M. discriminate M.
Qed.
Print Assumptions C96_report_shared_refuted.

Example C96_case :
  option_map (fun m => (num_msgs m, Qred (rate_mean m), option_map Qred (rate_median m), Qred (lat_mean m), lat_median m))
    (calculate_metrics 8 [(0, 5, 0%nat); (10, 13, 1%nat); (30, 34, 3%nat)]%Z) =
    Some (3%nat, (1 # 10)%Q, Some (2 # 29)%Q, 4%Q, 4%Z) /\
  dropped [(0, 5, 0%nat); (10, 13, 1%nat); (30, 34, 3%nat)]%Z = 1%Z /\
  connections Relay 2 = [(Source, Client 0); (Client 0, Client 1); (Client 1, Sink)] /\
  expected Fanin 2 5 = 15 /\
  test_list true [8; 64] [1] [0] [3; 4] 1 = [(1, 8, 3, 0); (1, 8, 4, 0); (1, 64, 3, 0); (1, 64, 4, 0)] /\
  option_map Qred (load_perf (benchmark (10, 1, 1) (fun _ _ => false) (fun i k => inject_Z (Z.of_nat (i * 10 + k)))
    [(1, 8, 3, 0); (1, 64, 3, 0); (1, 8, 3, 0)] 3) (1, 8, 3, 0)) = Some 11%Q /\
  load_perf (benchmark (10, 1, 1) (fun i k => Nat.eqb k 1) (fun i k => inject_Z (Z.of_nat (i * 10 + k)))
    [(1, 8, 3, 0); (1, 64, 3, 0); (1, 8, 3, 0)] 3) (1, 64, 3, 0) = None.
Proof. vm_compute. repeat split. Qed.
