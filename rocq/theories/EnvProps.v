(** C102: what is said about the machines of two benchmark runs. *)
From Coq Require Import String Ascii.
From Coq Require Import List Arith NArith Bool Lia Permutation Sorted.
From Verif Require Import CodecModel CmdModel CmdProofs PerfModel PerfProofs HotModel HotSpec HotProofs EnvModel EnvSpec EnvProofs.
Import ListNotations.
Local Open Scope nat_scope.

(** The differences are the fields with different values, with both. *)
Theorem C102_differences : forall (V : Type) (eqv : V -> V -> bool), (forall x y, eqv x y = true <-> x = y) ->
  forall keys (a b : @info V), NoDup (map fst a) -> NoDup (map fst b) -> names_of a b keys ->
  (forall k x y, In (k, (x, y)) (diff eqv keys a b) <-> has a k x /\ has b k y /\ x <> y) /\ NoDup (map fst (diff eqv keys a b)) /\
  diff eqv keys b a = map (fun e => (fst e, (snd (snd e), fst (snd e)))) (diff eqv keys a b).
Proof.
  intros V eqv E keys a b Na Nb K. split; [intros k x y; now apply listed_diff|]. split; [apply diff_nodup, K|now apply swapped].
Qed.
Print Assumptions C102_differences.

(** "No differences." is said exactly if there is none. *)
Theorem C102_none : forall (V : Type) (eqv : V -> V -> bool) (shown : option V -> pystr), (forall x y, eqv x y = true <-> x = y) ->
  forall keys (a b : @info V), NoDup (map fst a) -> NoDup (map fst b) -> names_of a b keys ->
  (diff_envs eqv shown keys a b = text "No differences." <-> forall k x y, has a k x -> has b k y -> x = y).
Proof.
  intros V eqv shown E keys a b Na Nb K. unfold diff_envs. rewrite nothing. split.
  - intros D k x y A B. destruct x as [x|], y as [y|]; try reflexivity.
    + destruct (eqv x y) eqn:Q; [apply E in Q; now subst|]. exfalso. assert (I : In (k, (Some x, Some y)) (diff eqv keys a b)); [|rewrite D in I; destruct I].
      apply (listed_diff eqv E keys a b k _ _ Na Nb K). split; [exact A|]. split; [exact B|]. intros [= H]. apply E in H. congruence.
    + exfalso. assert (I : In (k, (Some x, None)) (diff eqv keys a b)); [|rewrite D in I; destruct I].
      apply (listed_diff eqv E keys a b k _ _ Na Nb K). split; [exact A|]. split; [exact B|discriminate].
    + exfalso. assert (I : In (k, (None, Some y)) (diff eqv keys a b)); [|rewrite D in I; destruct I].
      apply (listed_diff eqv E keys a b k _ _ Na Nb K). split; [exact A|]. split; [exact B|discriminate].
  - intros H. destruct (diff eqv keys a b) as [|[k [x y]] d] eqn:D; [reflexivity|]. exfalso.
    assert (I : In (k, (x, y)) (diff eqv keys a b)) by (rewrite D; now left). apply (listed_diff eqv E keys a b k x y Na Nb K) in I as [A [B N]]. exact (N (H k x y A B)).
Qed.
Print Assumptions C102_none.

(** The text does not depend on the order in which the names are looked through. *)
Theorem C102_order : forall (V : Type) (eqv : V -> V -> bool) (shown : option V -> pystr) keys keys' (a b : @info V),
  names_of a b keys -> names_of a b keys' -> diff_envs eqv shown keys a b = diff_envs eqv shown keys' a b.
Proof.
  intros V eqv shown keys keys' a b [N H] [N' H']. unfold diff_envs. apply format_perm; [now apply diff_nodup|]. apply diff_perm.
  apply NoDup_Permutation; auto. intros k. now rewrite H, H'.
Qed.
Print Assumptions C102_order.

(** Otherwise there is a line for each difference, in the order of the names, which are filled up to the width of the longest. *)
Theorem C102_lines : forall (V : Type) (eqv : V -> V -> bool) (shown : option V -> pystr) keys (a b : @info V),
  names_of a b keys -> (forall k, In k keys -> ~ In 10%N k) -> (forall v, ~ In 10%N (shown v)) -> diff eqv keys a b <> [] ->
  exists ds w, Permutation (diff eqv keys a b) ds /\ StronglySorted (fun x y => precedes (fst x) (fst y)) ds /\
    lines_of (diff_envs eqv shown keys a b) = text "Differences in TestEnvironmentInfo:" ::
      map (fun e => text "  " ++ (fst e ++ repeat 32%N (w - length (fst e))) ++ text " : " ++ shown (fst (snd e)) ++ text "  !=  " ++ shown (snd (snd e))) ds /\
    (forall e, In e ds -> length (fst e ++ repeat 32%N (w - length (fst e))) = w) /\ (exists e, In e ds /\ length (fst e) = w).
Proof.
  intros V eqv shown keys a b [N _] K S D. destruct (text_lines shown (diff eqv keys a b)) as [ds [w [P [So [L W]]]]]; auto; [now apply diff_nodup| |].
  { intros k I. rewrite diff_keys in I. apply filter_In in I as [I _]. now apply K. }
  exists ds, w. split; [exact P|]. split; [|split; [exact L|exact W]]. eapply sorted_impl; [|exact So]. intros x y [A B]. apply leb_before in A as [A|A]; [contradiction|exact A].
Qed.
Print Assumptions C102_lines.

(** Two machines that differ in the system and the number of CPUs. *)
Example C102_case :
  let a := [(text "os", text "Linux"); (text "machine", text "x"); (text "cpus", text "4")] in
  let b := [(text "os", text "Darwin"); (text "machine", text "x"); (text "cpus", text "8")] in
  let shown := fun v => match v with Some s => s | None => text "None" end in
  names_of a b [text "os"; text "machine"; text "cpus"] /\
  map fst (diff str_eqb [text "os"; text "machine"; text "cpus"] a b) = [text "os"; text "cpus"] /\
  lines_of (diff_envs str_eqb shown [text "os"; text "machine"; text "cpus"] a b) =
    [text "Differences in TestEnvironmentInfo:"; text "  cpus : 4  !=  8"; text "  os   : Linux  !=  Darwin"] /\
  diff_envs str_eqb shown [text "os"; text "machine"; text "cpus"] a a = text "No differences.".
Proof.
  cbv zeta. split; [|split; [vm_compute; reflexivity|split; vm_compute; reflexivity]]. split.
  - repeat constructor; vm_compute; intuition discriminate.
  - intros k. cbn [map fst]. tauto.
Qed.
