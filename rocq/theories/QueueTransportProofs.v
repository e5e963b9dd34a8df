From Coq Require Import NArith Ascii String List ZArith Arith Bool Lia.
From Verif Require Import LeakyQueueModel TransportModel QueueTransportSpec.
Import ListNotations.

Section Q.
Context {A : Type}.

Definition q_ok (m : Z) (q : queue A) := maxsize q = m /\ ((0 < m)%Z -> (Z.of_nat (length (items q)) <= m)%Z).

Lemma q_put_some m q x : q_ok m q -> exists q', q_put x q = Some q' /\ q_ok m q' /\
  ((q_full q = false /\ items q' = items q ++ [x] /\ gone q' = gone q) \/
   (q_full q = true /\ exists y r, items q = y :: r /\ items q' = r ++ [x] /\ gone q' = gone q ++ [Dropped y])).
Proof.
  intros [Em Hb]. unfold q_put. destruct (q_full q) eqn:F.
  - unfold q_full in F. rewrite Em in F. destruct (Z.leb_spec m 0); [discriminate|].
    apply Z.leb_le in F. specialize (Hb H). unfold q_drop_oldest.
    destruct (items q) as [|y r] eqn:I; [cbn in F; lia|].
    unfold q_full. cbn [maxsize items]. rewrite Em. destruct (Z.leb_spec m 0); [lia|].
    cbn [List.length] in F, Hb. destruct (Z.leb_spec m (Z.of_nat (List.length r))); [lia|].
    eexists. split; [reflexivity|]. split.
    + split; [reflexivity|]. cbn. intros _. rewrite app_length. cbn. lia.
    + right. split; [reflexivity|]. exists y, r. auto.
  - rewrite F. eexists. split; [reflexivity|]. split.
    + split; [exact Em|]. cbn. intros Hm. rewrite app_length. cbn. unfold q_full in F. rewrite Em in F.
      destruct (Z.leb_spec m 0); [lia|]. apply Z.leb_gt in F. lia.
    + left. auto.
Qed.

Lemma q_get_ok m q : q_ok m q -> q_ok m (q_step q QGet).
Proof.
  intros [Em Hb]. cbn. unfold q_get. destruct (items q) as [|x r] eqn:I; [split; [exact Em|rewrite I; exact Hb]|].
  split; [exact Em|]. cbn in *. lia.
Qed.

Lemma q_step_ok m q o : q_ok m q -> q_ok m (q_step q o).
Proof.
  destruct o as [x|]; [|apply q_get_ok]. intros H. cbn. destruct (q_put_some m q x H) as (q' & -> & Hq & _). exact Hq.
Qed.

Lemma q_run_snoc m ops (o : q_op A) : q_run m (ops ++ [o]) = q_step (q_run m ops) o.
Proof. unfold q_run. now rewrite fold_left_app. Qed.

Lemma q_run_ok m (ops : list (q_op A)) : q_ok m (q_run m ops).
Proof.
  induction ops as [|o ops IH] using rev_ind; [split; cbn; [reflexivity|lia]|].
  rewrite q_run_snoc. now apply q_step_ok.
Qed.

Lemma q_contents m (ops : list (q_op A)) : map removed_item (gone (q_run m ops)) ++ items (q_run m ops) = puts ops.
Proof.
  induction ops as [|o ops IH] using rev_ind; [reflexivity|].
  rewrite q_run_snoc. unfold puts; rewrite flat_map_app; fold (puts ops).
  pose proof (q_run_ok m ops) as H. set (q := q_run m ops) in *. clearbody q.
  destruct o as [x|]; cbn [flat_map q_step].
  - destruct (q_put_some m q x H) as (q' & -> & _ & [(_ & Ei & Eg)|(_ & y & r & Ey & Ei & Eg)]); rewrite Ei, Eg.
    + now rewrite app_assoc, IH, app_nil_r.
    + rewrite map_app, <- IH, Ey. cbn. rewrite <- !app_assoc. reflexivity.
  - unfold q_get. rewrite app_nil_r. destruct (items q) as [|x r] eqn:I; [now rewrite I|].
    cbn [gone items]. rewrite map_app, <- app_assoc. cbn. exact IH.
Qed.

Lemma q_bound m (ops : list (q_op A)) : (0 < m)%Z -> (Z.of_nat (length (items (q_run m ops))) <= m)%Z.
Proof. exact (proj2 (q_run_ok m ops)). Qed.

Lemma q_put_effect m ops (x : A) :
  exists q, q_put x (q_run m ops) = Some q /\ q_run m (ops ++ [QPut x]) = q /\
  gone q = gone (q_run m ops) ++
    (if (0 <? m)%Z && (m =? Z.of_nat (length (items (q_run m ops))))%Z
     then match items (q_run m ops) with y :: _ => [Dropped y] | [] => [] end else []).
Proof.
  pose proof (q_run_ok m ops) as H. destruct (q_put_some m _ x H) as (q' & E & _ & D). exists q'.
  rewrite q_run_snoc. cbn [q_step]. rewrite E. split; [reflexivity|]. split; [reflexivity|].
  destruct H as [Em Hb]. unfold q_full in D. rewrite Em in D.
  destruct (Z.ltb_spec 0 m) as [Hm|Hm]; cbn [andb].
  - destruct (Z.leb_spec m 0); [lia|]. specialize (Hb Hm).
    destruct (Z.eqb_spec m (Z.of_nat (length (items (q_run m ops))))) as [Q|Q];
    destruct D as [(F & _ & Eg)|(F & y & r & Ey & _ & Eg)].
    + apply Z.leb_gt in F. lia.
    + now rewrite Ey.
    + now rewrite Eg, app_nil_r.
    + apply Z.leb_le in F. lia.
  - destruct (Z.leb_spec m 0); [|lia]. destruct D as [(F & _ & Eg)|(F & _)]; [|discriminate]. now rewrite Eg, app_nil_r.
Qed.

Lemma q_get_effect m (ops : list (q_op A)) :
  match q_get (q_run m ops) with
  | None => items (q_run m ops) = []
  | Some (x, q) => items (q_run m ops) = x :: items q /\ gone q = gone (q_run m ops) ++ [Got x]
  end.
Proof. unfold q_get. destruct (items (q_run m ops)); [reflexivity|]. cbn. auto. Qed.

Lemma q_purge_spec mine : forall n (q : queue A) kept rest, items q = rest ++ kept -> length rest = n ->
  q_ok (maxsize q) q ->
  items (q_purge mine n q) = kept ++ filter (fun x => negb (mine x)) rest /\ gone (q_purge mine n q) = gone q.
Proof.
  induction n as [|n IH]; intros q kept rest E L Hok.
  - destruct rest; [|discriminate]. cbn in *. now rewrite app_nil_r.
  - destruct rest as [|x rest]; [discriminate|]. cbn in L. cbn [q_purge]. rewrite E. cbn [app].
    set (q0 := {| maxsize := maxsize q; items := rest ++ kept; gone := gone q |}).
    assert (Hok0 : q_ok (maxsize q0) q0).
    { split; [reflexivity|]. intros Hm. destruct Hok as [_ Hb]. specialize (Hb Hm). rewrite E in Hb. cbn in *. lia. }
    destruct (mine x) eqn:M.
    + destruct (IH q0 kept rest eq_refl ltac:(lia) Hok0) as [E1 E2]. cbn [filter]. rewrite M. cbn [negb]. auto.
    + unfold q_put. assert (F : q_full q0 = false).
      { unfold q_full. destruct (Z.leb_spec (maxsize q0) 0) as [H|H]; [reflexivity|]. apply Z.leb_gt.
        destruct Hok as [_ Hb]. cbn in H. specialize (Hb H). rewrite E in Hb. cbn in *. lia. }
      rewrite F, F. set (q1 := {| maxsize := maxsize q0; items := items q0 ++ [x]; gone := gone q0 |}).
      assert (Hok1 : q_ok (maxsize q1) q1).
      { split; [reflexivity|]. intros Hm. destruct Hok as [_ Hb]. specialize (Hb Hm). rewrite E in Hb. cbn in *.
        rewrite !app_length in *. cbn. lia. }
      destruct (IH q1 (kept ++ [x]) rest) as [E1 E2]; [cbn; now rewrite app_assoc|lia|exact Hok1|].
      cbn [filter]. rewrite M. cbn [negb]. rewrite E1, <- app_assoc. cbn. auto.
Qed.

Lemma q_purge_run m (ops : list (q_op A)) mine :
  let q := q_run m ops in let q' := q_purge mine (length (items q)) q in
  items q' = filter (fun x => negb (mine x)) (items q) /\ gone q' = gone q.
Proof.
  cbn. pose proof (q_run_ok m ops) as H. set (q := q_run m ops) in *. clearbody q.
  destruct (q_purge_spec mine (length (items q)) q [] (items q)) as [E1 E2]; [now rewrite app_nil_r|reflexivity|..]; auto.
  destruct H as [Em Hb]. split; [reflexivity|]. now rewrite Em.
Qed.
End Q.

(** Transports. *)
Definition sel (ix : nat) (a : action) : list transport :=
  match a with
  | SendShm j => if Nat.eqb j ix then [SharedMemory] else []
  | SendTcp j => if Nat.eqb j ix then [Tcp] else []
  | PutLocal => [] end.

Lemma frames_sel c : forall chs k ix, flat_map (sel ix) (frames c k chs) =
  if k <=? ix then
    match nth_error chs (ix - k) with
    | Some ch => if can_deliver_locally c ch then [] else if can_deliver_via_shm c ch then [SharedMemory] else [Tcp]
    | None => [] end
  else [].
Proof.
  induction chs as [|ch chs IH]; intros k ix; cbn [frames].
  - cbn. destruct (k <=? ix); [|reflexivity]. destruct (ix - k); reflexivity.
  - rewrite flat_map_app, IH. destruct (Nat.leb_spec k ix) as [H|H].
    + destruct (Nat.eq_dec ix k) as [->|Hne].
      * rewrite Nat.sub_diag. cbn [nth_error]. destruct (Nat.leb_spec (S k) k); [lia|].
        rewrite app_nil_r. destruct (can_deliver_locally c ch); [reflexivity|].
        destruct (can_deliver_via_shm c ch); cbn; now rewrite Nat.eqb_refl.
      * destruct (Nat.leb_spec (S k) ix); [|lia]. replace (ix - k) with (S (ix - S k)) by lia. cbn [nth_error].
        assert (Z : flat_map (sel ix) (if can_deliver_locally c ch then [] else if can_deliver_via_shm c ch then [SendShm k] else [SendTcp k]) = []).
        { destruct (can_deliver_locally c ch); [reflexivity|].
          destruct (can_deliver_via_shm c ch); cbn; destruct (Nat.eqb_spec k ix); try lia; reflexivity. }
        now rewrite Z.
    + destruct (Nat.leb_spec (S k) ix); [lia|]. rewrite app_nil_r.
      destruct (can_deliver_locally c ch); [reflexivity|].
      destruct (can_deliver_via_shm c ch); cbn; destruct (Nat.eqb_spec k ix); try lia; reflexivity.
Qed.

Lemma frames_no_local c : forall chs k, existsb (fun a => match a with PutLocal => true | _ => false end) (frames c k chs) = false.
Proof.
  induction chs as [|ch chs IH]; intros k; cbn [frames]; [reflexivity|]. rewrite existsb_app, IH, orb_false_r.
  destruct (can_deliver_locally c ch); [reflexivity|]. destruct (can_deliver_via_shm c ch); reflexivity.
Qed.

Lemma local_put_iff c chs :
  existsb (fun a => match a with PutLocal => true | _ => false end) (broadcast_actions c chs) = existsb (can_deliver_locally c) chs.
Proof.
  unfold broadcast_actions. rewrite existsb_app, frames_no_local, orb_false_r.
  destruct (existsb (can_deliver_locally c) chs); reflexivity.
Qed.

Lemma transport_exact c chs ix ch : nth_error chs ix = Some ch ->
  transport_of c chs ix =
  [if can_deliver_locally c ch then InProcess else if can_deliver_via_shm c ch then SharedMemory else Tcp].
Proof.
  intros E. unfold transport_of. rewrite E, local_put_iff.
  change (flat_map _ (broadcast_actions c chs)) with (flat_map (sel ix) (broadcast_actions c chs)).
  unfold broadcast_actions. rewrite flat_map_app, frames_sel, Nat.sub_0_r, E. cbn [Nat.leb].
  assert (Z : flat_map (sel ix) (if existsb (can_deliver_locally c) chs then [PutLocal] else []) = [])
    by (destruct (existsb _ _); reflexivity).
  rewrite Z. cbn [app].
  destruct (can_deliver_locally c ch) eqn:L.
  - assert (X : existsb (can_deliver_locally c) chs = true).
    { apply existsb_exists. exists ch. split; [eapply nth_error_In; eauto|exact L]. }
    rewrite X. reflexivity.
  - cbn. destruct (can_deliver_via_shm c ch); reflexivity.
Qed.

Lemma lower_letter c w : (65 <=? N_of_ascii w)%N && (N_of_ascii w <=? 90)%N = false ->
  Ascii.eqb (lower_ascii c) w = same_letter c w.
Proof. destruct c as [[] [] [] [] [] [] [] []], w as [[] [] [] [] [] [] [] []]; vm_compute; congruence. Qed.

Fixpoint no_upper (w : string) : bool :=
  match w with
  | EmptyString => true
  | String d w' => negb ((65 <=? N_of_ascii d)%N && (N_of_ascii d <=? 90)%N) && no_upper w'
  end.

Lemma lower_word w : no_upper w = true -> forall s, String.eqb (lower s) w = same_word s w.
Proof.
  induction w as [|d w IH]; intros H s; destruct s as [|c s]; try reflexivity.
  cbn [no_upper] in H. apply andb_true_iff in H as [H1 H2]. apply negb_true_iff in H1.
  cbn [lower same_word String.eqb]. rewrite (lower_letter c d H1).
  destruct (same_letter c d); [|reflexivity]. cbn [andb]. now apply IH.
Qed.

Lemma truthy_says_yes s : truthy s = says_yes s.
Proof.
  unfold truthy, says_yes. cbn [existsb]. rewrite !lower_word by reflexivity. now rewrite orb_false_r, !orb_assoc.
Qed.

Lemma transport_cases c chs ix ch : nth_error chs ix = Some ch ->
  let ftcp := effective false (env_force_tcp c) (opt_force_tcp c) in
  let local := effective true (env_allow_local c) (opt_allow_local c) in
  transport_of c chs ix =
  [if ftcp then Tcp
   else if negb (ch_shm_ok ch) then Tcp
   else if local && Nat.eqb (pub_pid c) (ch_pid ch) then InProcess
   else SharedMemory].
Proof.
  intros E. cbn zeta. rewrite (transport_exact c chs ix ch E). f_equal.
  unfold can_deliver_via_shm, can_deliver_locally, cfg_allow_local, resolve_allow_local.
  assert (F : cfg_force_tcp c = effective false (env_force_tcp c) (opt_force_tcp c)).
  { unfold cfg_force_tcp, resolve_force_tcp, effective, force_tcp_default.
    destruct (opt_force_tcp c); [reflexivity|]. destruct (env_force_tcp c); [|reflexivity]. now rewrite truthy_says_yes. }
  assert (G : match opt_allow_local c with None => allow_local_default (env_allow_local c) | Some b => b end
              = effective true (env_allow_local c) (opt_allow_local c)).
  { unfold effective, allow_local_default.
    destruct (opt_allow_local c); [reflexivity|]. destruct (env_allow_local c); [|reflexivity]. now rewrite truthy_says_yes. }
  rewrite G, F. destruct (effective false _ _), (effective true _ _), (ch_shm_ok ch), (Nat.eqb _ _); reflexivity.
Qed.

(** One local delivery at most, and no frame for a channel index out of range. *)
Lemma put_local_once c chs :
  Nat.le (List.length (filter (fun a => match a with PutLocal => true | _ => false end) (broadcast_actions c chs))) 1.
Proof.
  unfold broadcast_actions. rewrite filter_app, app_length.
  assert (Z : forall k, filter (fun a => match a with PutLocal => true | _ => false end) (frames c k chs) = []).
  { induction chs as [|ch l IH]; intros k; cbn [frames]; [reflexivity|]. rewrite filter_app, IH, app_nil_r.
    destruct (can_deliver_locally c ch); [reflexivity|]. destruct (can_deliver_via_shm c ch); reflexivity. }
  rewrite Z. destruct (existsb _ _); cbn; lia.
Qed.
