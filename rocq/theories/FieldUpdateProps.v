(* Property C61: successful field updates accumulate. *)

From Coq Require Import List Arith Bool.
From Verif Require Import FieldUpdateModel.
Import ListNotations.

Section Spec.
Context {S U : Type} (patch : S -> U -> option S).

(** What has been sent to the unit: full messages and successful updates. *)
Definition sent1 (h : event S U * option (answer S U)) : list S :=
  match h with
  | (Message m, _) => [m]
  | (_, Some (Ok _ p)) => [p]
  | _ => []
  end.
Definition sent (t : list (event S U * option (answer S U))) : list S := flat_map sent1 t.

(** The settings one expects: a full message replaces them, a successful field
    update patches what there is. *)
Definition expect1 (c : option S) (h : event S U * option (answer S U)) : option S :=
  match h with
  | (Message m, _) => Some m
  | (_, Some (Ok u _)) => match c with Some c => patch c u | None => None end
  | _ => c
  end.
Definition expected (init : option S) (t : list (event S U * option (answer S U))) : option S :=
  fold_left expect1 t init.

(** The settings the unit has once it has received everything sent to it. *)
Definition settled (init : option S) (s : unit_state S U) : option S :=
  fold_left (fun _ m => Some m) (u_received s ++ u_inbox s) init.

(** Runs in which a field update is handled only when the unit has received everything, and no
    full message is sent while one is being handled. *)
Inductive calm_run (init : option S) : unit_state S U -> list (event S U * option (answer S U)) -> Prop :=
| calm_start : calm_run init (start init) []
| calm_step s t e s' a : calm_run init s t -> ustep patch s e = Some (s', a) ->
    match e with Request _ => u_inbox s = [] | Message _ => u_pending s = None | _ => True end ->
    calm_run init s' (t ++ [(e, a)]).

(** ---- proofs ---- *)

Lemma settled_snoc l m (init : option S) : fold_left (fun _ m => Some m) (l ++ [m]) init = Some m.
Proof. now rewrite fold_left_app. Qed.

Lemma calm_is_run init s t : calm_run init s t -> urun patch init s t.
Proof. induction 1; econstructor; eauto. Qed.

Lemma sent_run init s t : urun patch init s t -> u_received s ++ u_inbox s = sent t.
Proof.
  induction 1 as [|s t e s' a R IH E]; [reflexivity|]. unfold sent. rewrite flat_map_app. fold (sent t). rewrite <- IH.
  cbn [flat_map]. rewrite app_nil_r. unfold ustep in E. destruct e.
  - injection E as <- <-. cbn. now rewrite app_assoc.
  - destruct (u_pending s); [discriminate|]. destruct (u_current s) as [c|]; [|injection E as <- <-; cbn; now rewrite app_nil_r].
    destruct (patch c u); injection E as <- <-; cbn; now rewrite app_nil_r.
  - destruct (u_pending s) as [[u p]|]; [|discriminate]. injection E as <- <-. cbn. now rewrite app_assoc.
  - destruct (u_pending s); [|discriminate]. injection E as <- <-. cbn. now rewrite app_nil_r.
  - destruct (u_inbox s) as [|m r]; [discriminate|]. injection E as <- <-. cbn. now rewrite <- app_assoc, app_nil_r.
Qed.

Lemma calm_inv init s t : calm_run init s t ->
  settled init s = expected init t /\ (u_inbox s = [] -> u_current s = settled init s) /\
  match u_pending s with Some (u, p) => u_inbox s = [] /\ exists c, u_current s = Some c /\ patch c u = Some p | None => True end.
Proof.
  induction 1 as [|s t e s' a R [E1 [E2 E3]] E Q]; [cbn; auto|].
  unfold expected. rewrite fold_left_app. fold (expected init t). rewrite <- E1. cbn [fold_left].
  unfold ustep in E. destruct e.
  - injection E as <- <-. unfold settled. cbn [u_received u_inbox u_current u_pending expect1]. rewrite app_assoc, settled_snoc. split; [reflexivity|]. split.
    + intros K. destruct (u_inbox s); discriminate.
    + now rewrite Q.
  - destruct (u_pending s) eqn:Ep; [discriminate|]. destruct (u_current s) as [c|] eqn:Ec.
    + destruct (patch c u) as [p|] eqn:Eu; injection E as <- <-; cbn [u_received u_inbox u_current u_pending expect1].
      * split; [reflexivity|]. split; [intros _; rewrite (E2 Q); reflexivity|]. split; [assumption|]. exists c. auto.
      * split; [reflexivity|]. split; [rewrite Ec; exact E2|]. now rewrite Ep.
    + injection E as <- <-. cbn [expect1]. split; [reflexivity|]. split; [rewrite Ec; exact E2|]. now rewrite Ep.
  - destruct (u_pending s) as [[u p]|]; [|discriminate]. injection E as <- <-. destruct E3 as [Ei [c [Ec Eu]]].
    unfold settled at 1 3. cbn [u_received u_inbox u_current u_pending expect1]. rewrite app_assoc, !settled_snoc.
    rewrite <- E2, Ec by assumption. split; [now rewrite Eu|]. split; [reflexivity|exact I].
  - destruct (u_pending s) as [[u p]|]; [|discriminate]. injection E as <- <-. cbn. auto.
  - destruct (u_inbox s) as [|m r] eqn:Ei; [discriminate|]. injection E as <- <-. unfold settled in *.
    cbn [u_received u_inbox u_current u_pending expect1]. rewrite Ei in *. split; [now rewrite <- app_assoc|]. split.
    + intros ->. rewrite app_nil_r, settled_snoc. reflexivity.
    + destruct (u_pending s) as [[u p]|]; [|exact I]. destruct E3; discriminate.
Qed.

(** Every full message and every successful update reaches the unit, once, in the order in which they were sent. *)
Theorem C61_updates_reach_the_unit :
  forall (init : option S) (s : unit_state S U) t, urun patch init s t ->
  u_received s ++ u_inbox s = sent t.
Proof. exact sent_run. Qed.

(** If the unit has received everything when a field update is handled, the settings it ends
    with are the full messages and the field updates applied one after the other.
    Missing from the full claim: the condition, without which it is false. *)
Theorem C61_updates_accumulate_partial :
  forall (init : option S) (s : unit_state S U) t, calm_run init s t ->
  settled init s = expected init t.
Proof. intros init s t R. now apply (calm_inv init s t). Qed.

End Spec.
Print Assumptions C61_updates_reach_the_unit.
Print Assumptions C61_updates_accumulate_partial.

(** Settings with three fields, each set by an update. *)
Definition set_field (s : list (nat * nat)) (u : nat * nat) : option (list (nat * nat)) :=
  if existsb (fun p => fst p =? fst u) s
  then Some (map (fun p => if fst p =? fst u then u else p) s) else None.

Fixpoint play (s : unit_state (list (nat * nat)) (nat * nat)) (es : list (event _ _)) acc :=
  match es with
  | [] => Some (s, acc)
  | e :: r => match ustep set_field s e with Some (s', a) => play s' r (acc ++ [(e, a)]) | None => None end
  end.

Lemma play_run init es : forall s acc s' acc', urun set_field init s acc -> play s es acc = Some (s', acc') -> urun set_field init s' acc'.
Proof.
  induction es as [|e es IH]; intros s acc s' acc' R E; cbn in E; [injection E as <- <-; assumption|].
  destruct (ustep set_field s e) as [[s1 a]|] eqn:E1; [|discriminate]. eapply IH; [|exact E]. econstructor; eauto.
Qed.

(** Three updates of three different fields, each of them answered before the next is sent, no other
    message at all: the unit is slow to receive them, and the second update is
    lost, although it was answered with success. *)
Theorem C61_slow_unit_loses_an_update_refuted :
  exists s t, urun set_field (Some [(0, 0); (1, 0); (2, 0)]) s t /\
    u_inbox s = [] /\ u_pending s = None /\
    expected set_field (Some [(0, 0); (1, 0); (2, 0)]) t = Some [(0, 7); (1, 8); (2, 9)] /\
    settled (Some [(0, 0); (1, 0); (2, 0)]) s = Some [(0, 7); (1, 0); (2, 9)] /\
    u_current s = Some [(0, 7); (1, 0); (2, 9)].
Proof.
  destruct (play (start (Some [(0, 0); (1, 0); (2, 0)]))
     [Request (0, 7); Publish; Request (1, 8); Publish; Receive; Request (2, 9); Publish; Receive; Receive] []) as [[s t]|] eqn:E; [|discriminate].
  pose proof (play_run _ _ _ _ _ _ (urun_start set_field _) E) as R. vm_compute in E. injection E as <- <-.
  eexists _, _. split; [exact R|]. vm_compute. auto.
Qed.
Print Assumptions C61_slow_unit_loses_an_update_refuted.

(** A full settings message that the unit receives while a field update waits for its publisher is
    undone by that update. *)
Theorem C61_full_message_undone_refuted :
  exists s t, urun set_field (Some [(0, 0); (1, 0)]) s t /\
    u_inbox s = [] /\ u_pending s = None /\
    expected set_field (Some [(0, 0); (1, 0)]) t = Some [(0, 7); (1, 5)] /\
    settled (Some [(0, 0); (1, 0)]) s = Some [(0, 7); (1, 0)].
Proof.
  destruct (play (start (Some [(0, 0); (1, 0)]))
     [Request (0, 7); Message [(0, 5); (1, 5)]; Receive; Publish; Receive] []) as [[s t]|] eqn:E; [|discriminate].
  pose proof (play_run _ _ _ _ _ _ (urun_start set_field _) E) as R. vm_compute in E. injection E as <- <-.
  eexists _, _. split; [exact R|]. vm_compute. auto.
Qed.
Print Assumptions C61_full_message_undone_refuted.

(** A calm run: two updates, a full message and an update that fails. *)
Fixpoint calm_play (s : unit_state (list (nat * nat)) (nat * nat)) (es : list (event _ _)) acc :=
  match es with
  | [] => Some (s, acc)
  | e :: r =>
      if match e with
         | Request _ => match u_inbox s with [] => true | _ => false end
         | Message _ => match u_pending s with None => true | _ => false end
         | _ => true
         end
      then match ustep set_field s e with Some (s', a) => calm_play s' r (acc ++ [(e, a)]) | None => None end
      else None
  end.

Lemma calm_play_run init es : forall s acc s' acc', calm_run set_field init s acc -> calm_play s es acc = Some (s', acc') -> calm_run set_field init s' acc'.
Proof.
  induction es as [|e es IH]; intros s acc s' acc' R E; cbn [calm_play] in E; [injection E as <- <-; assumption|].
  match type of E with (if ?c then _ else _) = _ => destruct c eqn:C end; [|discriminate].
  destruct (ustep set_field s e) as [[s1 a]|] eqn:E1; [|discriminate]. eapply IH; [|exact E]. econstructor; eauto.
  destruct e; auto; [destruct (u_pending s)|destruct (u_inbox s)]; congruence.
Qed.

Example C61_case :
  exists s t, calm_run set_field (Some [(0, 0); (1, 0)]) s t /\ length t = 9 /\
    settled (Some [(0, 0); (1, 0)]) s = Some [(0, 6); (1, 8)].
Proof.
  destruct (calm_play (start (Some [(0, 0); (1, 0)]))
     [Message [(0, 6); (1, 6)]; Receive; Request (4, 4); Request (1, 7); Publish; Receive; Request (1, 8); Publish; Receive] [])
     as [[s t]|] eqn:E; [|discriminate].
  pose proof (calm_play_run _ _ _ _ _ _ (calm_start set_field _) E) as R. vm_compute in E. injection E as <- <-.
  eexists _, _. split; [exact R|]. vm_compute. auto.
Qed.
