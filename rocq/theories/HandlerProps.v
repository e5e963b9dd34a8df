(* C66: every handler of a stream is given every message of the stream, one after the other, until
   it says that it is done; a message is held until all of them are through with it; what they yield
   is published; the failure of one of them disturbs neither itself nor the others. *)

From Coq Require Import List Bool Arith Lia.
From Verif Require Import Dict HandlerModel HandlerSpec HandlerProofs.
Import ListNotations.

(** Between two messages, a handler that has not raised Complete or NormalTermination has been given
    exactly the messages received, in order; one that has was given exactly those up to the message
    on which it did. *)
Theorem C66_every_message_to_every_handler :
  forall {H M S O : Type} `{Dec H} (handlers : list H) (has_pub : S -> bool) (strict reports : bool)
         (x : state H M S O) (t : list (happening H M S O)) (h : H),
  NoDup handlers -> run handlers has_pub strict reports x t -> In h handlers ->
  (at_ x = Waiting -> ~ finished h t -> given h t = received t) /\
  (forall m, finished_at h m t -> exists before later, received t = before ++ m :: later /\ given h t = before ++ [m]) /\
  (~ finished h t -> given h t = received t \/ exists m, received t = given h t ++ [m]).
Proof.
  intros H M S O D handlers has_pub strict reports x t h Hnd Hr Hh.
  pose proof (run_Inv handlers Hnd has_pub strict reports x t Hr) as I.
  pose proof (inv_served _ _ _ _ I) as Hs. unfold served in Hs.
  split; [|split].
  - intros Ea Hn. rewrite Ea in Hs. apply Hs. apply (inv_callables _ _ _ _ I). auto.
  - intros m Hf. apply (inv_finished _ _ _ _ I h m Hf).
  - intros Hn. assert (Hc : In h (callables x)) by (apply (inv_callables _ _ _ _ I); auto).
    destruct (at_ x) as [|m0|m0 todo|m0 h0 todo| |].
    + left. apply Hs, Hc.
    + destruct Hs as (r & E & Hg). right. exists m0. rewrite (Hg h Hc). exact E.
    + destruct Hs as (_ & _ & r & E & Hg). destruct (Hg h Hc) as [G1 G2]. destruct (mem h todo) eqn:Em.
      * apply mem_In in Em. right. exists m0. rewrite (G1 Em). exact E.
      * apply mem_false in Em. left. rewrite (G2 Em). symmetry. exact E.
    + destruct Hs as (_ & _ & _ & _ & r & E & Hg). destruct (Hg h Hc) as [G1 G2]. destruct (mem h todo) eqn:Em.
      * apply mem_In in Em. right. exists m0. rewrite (G1 Em). exact E.
      * apply mem_false in Em. left. rewrite (G2 Em). symmetry. exact E.
    + rewrite Hs in Hc. destruct Hc.
    + apply Hs, Hc.
Qed.
Print Assumptions C66_every_message_to_every_handler.

(** A message is released, and the next one received, only when every handler that was still taking
    messages has ended with it. *)
Theorem C66_held_until_all_are_done :
  forall {H M S O : Type} `{Dec H} (handlers : list H) (has_pub : S -> bool) (strict reports : bool)
         (x : state H M S O) (t1 t2 t3 : list (happening H M S O)) (m m' : M),
  NoDup handlers ->
  run handlers has_pub strict reports x (t1 ++ Received m :: t2 ++ Received m' :: t3) -> no_reception t2 ->
  exists t2', t2 = t2' ++ [Released m] /\
              forall h, In h handlers -> ~ finished h t1 -> exists out, In (Ended h m out) t2'.
Proof.
  intros H M S O D handlers has_pub strict reports x t1 t2 t3 m m' Hnd Hr Hn.
  replace (t1 ++ Received m :: t2 ++ Received m' :: t3)
    with ((t1 ++ Received m :: t2) ++ Received m' :: t3) in Hr by (rewrite <- app_assoc; reflexivity).
  destruct (run_at _ _ _ _ _ _ _ _ Hr) as (x0 & e & x1 & Hr0 & Hs).
  destruct (step_received _ _ _ _ _ _ _ Hs) as [Ea _].
  pose proof (run_current handlers Hnd has_pub strict reports x0 _ Hr0) as Hc.
  unfold current in Hc. rewrite Ea in Hc. destruct Hc as [Hc|(u1 & m1 & u2 & E & Hn2 & Ha)].
  - rewrite received_app in Hc. simpl in Hc. destruct (received t1); discriminate Hc.
  - destruct (last_received t1 t2 u1 (u2 ++ [Released m1]) m m1 E Hn) as (-> & -> & ->).
    + unfold no_reception in *. rewrite received_other by discriminate. exact Hn2.
    + exists u2. auto.
Qed.
Print Assumptions C66_held_until_all_are_done.

(** What the handlers yield is published, in order, on the streams named (if the unit has them); the
    handlers run one after the other: what one yields comes after it was given its message, with
    nothing but its own outputs in between. *)
Theorem C66_yields_are_published :
  forall {H M S O : Type} `{Dec H} (handlers : list H) (has_pub : S -> bool) (strict reports : bool)
         (x : state H M S O) (t : list (happening H M S O)),
  NoDup handlers -> run handlers has_pub strict reports x t ->
  published x = filter (fun p => has_pub (fst p)) (yielded t) /\
  forall t1 h s o t2, t = t1 ++ Yielded h s o :: t2 ->
    exists ta m tb, t1 = ta ++ Given h m :: tb /\ Forall (fun a => exists s' o', a = Yielded h s' o') tb.
Proof.
  intros H M S O D handlers has_pub strict reports x t Hnd Hr. split.
  - apply (inv_published _ _ _ _ (run_Inv handlers Hnd has_pub strict reports x t Hr)).
  - intros t1 h s o t2 ->. destruct (run_at _ _ _ _ _ _ _ _ Hr) as (x0 & e & x1 & Hr0 & Hs).
    destruct (step_yielded _ _ _ _ _ _ _ _ _ Hs) as (m & todo & Ea).
    pose proof (run_current handlers Hnd has_pub strict reports x0 _ Hr0) as Hc.
    unfold current in Hc. rewrite Ea in Hc.
    destruct Hc as (u1 & u2 & -> & _ & (ta & tb & -> & Hy) & _).
    exists (u1 ++ Received m :: ta), m, tb. split; [|exact Hy]. rewrite <- app_assoc. reflexivity.
Qed.
Print Assumptions C66_yields_are_published.

(** Unless strict shutdown is asked for, nothing a handler does stops the loop: as long as it is not
    cancelled and some handler takes messages, it goes on, and it is ready for any message between
    two messages. *)
Theorem C66_keeps_going :
  forall {H M S O : Type} `{Dec H} (handlers : list H) (has_pub : S -> bool) (reports : bool)
         (x : state H M S O) (t : list (happening H M S O)),
  NoDup handlers -> run handlers has_pub false reports x t ->
  (forall e x' a, step has_pub false reports x e = Some (x', a) -> at_ x' = Dead -> e = Cancel) /\
  (at_ x <> Dead -> at_ x <> Closed -> at_ x <> Waiting ->
   exists e x' a, e <> Cancel /\ step has_pub false reports x e = Some (x', a)) /\
  (at_ x = Waiting -> (exists h, In h handlers /\ ~ finished h t) ->
   forall m, exists x', step has_pub false reports x (Recv m) = Some (x', Received m)).
Proof.
  intros H M S O D handlers has_pub reports x t Hnd Hr.
  pose proof (run_Inv handlers Hnd has_pub false reports x t Hr) as I.
  split; [|split].
  - intros e x' a Hs Hd. unfold step in Hs.
    destruct e as [m|ok|h|s o|out| | |]; [| | | | | | |reflexivity]; exfalso; destruct (at_ x) as [|m0|m0 todo|m0 h0 todo| |]; try discriminate Hs.
    + destruct (callables x); [discriminate|]. injection Hs as <- _. cbn [at_] in Hd. destruct reports; discriminate Hd.
    + injection Hs as <- _. discriminate Hd.
    + destruct (mem h todo); [|discriminate]. injection Hs as <- _. discriminate Hd.
    + injection Hs as <- _. discriminate Hd.
    + destruct out; injection Hs as <- _; discriminate Hd.
    + destruct todo; [|discriminate]. injection Hs as <- _. discriminate Hd.
    + destruct (callables x); [|discriminate]. injection Hs as <- _. discriminate Hd.
  - intros Hd Hc Hw. unfold step. destruct (at_ x) as [|m0|m0 todo|m0 h0 todo| |] eqn:Ea; try congruence.
    + exists (ReportEnds true). do 2 eexists. split; [discriminate|reflexivity].
    + destruct todo as [|h todo].
      * exists Release. do 2 eexists. split; [discriminate|reflexivity].
      * exists (Call h). do 2 eexists. split; [discriminate|].
        replace (mem h (h :: todo)) with true; [reflexivity|]. symmetry. apply mem_In. left. reflexivity.
    + exists (End Returns). do 2 eexists. split; [discriminate|reflexivity].
  - intros Ea (h & Hh & Hn) m. assert (Hc : In h (callables x)) by (apply (inv_callables _ _ _ _ I); auto).
    unfold step. rewrite Ea. destruct (callables x); [destruct Hc|]. eexists. reflexivity.
Qed.
Print Assumptions C66_keeps_going.

(** The subscriber is closed exactly when every handler is done, and that is the end. *)
Theorem C66_closes_when_all_are_done :
  forall {H M S O : Type} `{Dec H} (handlers : list H) (has_pub : S -> bool) (strict reports : bool)
         (x : state H M S O) (t : list (happening H M S O)),
  NoDup handlers -> run handlers has_pub strict reports x t ->
  (forall t1 t2, t = t1 ++ SubClosed :: t2 -> t2 = [] /\ forall h, In h handlers -> finished h t1) /\
  (at_ x = Waiting -> (forall h, In h handlers -> finished h t) ->
   (exists x', step has_pub strict reports x Close = Some (x', SubClosed)) /\
   forall m, step has_pub strict reports x (Recv m) = None).
Proof.
  intros H M S O D handlers has_pub strict reports x t Hnd Hr. split.
  - intros t1 t2 ->. destruct t2 as [|b t2].
    + split; [reflexivity|]. pose proof (run_current handlers Hnd has_pub strict reports x _ Hr) as Hc.
      destruct (run_last _ _ _ _ _ _ _ Hr) as (x0 & e & _ & Hs). apply step_subclosed in Hs.
      unfold current in Hc. rewrite Hs in Hc. intros h Hh. apply Hc in Hh.
      apply finished_plain in Hh; [exact Hh|exact Logic.I].
    + exfalso. replace (t1 ++ SubClosed :: b :: t2) with ((t1 ++ [SubClosed]) ++ b :: t2) in Hr
        by (rewrite <- app_assoc; reflexivity).
      destruct (run_at _ _ _ _ _ _ _ _ Hr) as (x0 & e & x1 & Hr0 & Hs).
      destruct (run_last _ _ _ _ _ _ _ Hr0) as (x2 & e2 & _ & Hs2). apply step_subclosed in Hs2.
      rewrite (step_closed _ _ _ _ _ Hs2) in Hs. discriminate Hs.
  - intros Ea Hf. assert (Ec : callables x = []).
    { destruct (callables x) as [|c cs] eqn:Ec; [reflexivity|].
      destruct (proj1 (inv_callables _ _ _ _ (run_Inv handlers Hnd has_pub strict reports x t Hr) c)) as [Hc Hn].
      - rewrite Ec. left. reflexivity.
      - destruct (Hn (Hf c Hc)). }
    unfold step. rewrite Ea, Ec. split; [eexists; reflexivity|reflexivity].
Qed.
Print Assumptions C66_closes_when_all_are_done.

(** The pipeline is told to terminate exactly when some handler has raised NormalTermination. *)
Theorem C66_normal_termination_is_announced :
  forall {H M S O : Type} `{Dec H} (handlers : list H) (has_pub : S -> bool) (strict reports : bool)
         (x : state H M S O) (t : list (happening H M S O)),
  NoDup handlers -> run handlers has_pub strict reports x t ->
  term_ev x = true <-> exists h m, In (Ended h m RaisesNormalTermination) t.
Proof.
  intros H M S O D handlers has_pub strict reports x t Hnd Hr.
  apply (inv_term _ _ _ _ (run_Inv handlers Hnd has_pub strict reports x t Hr)).
Qed.
Print Assumptions C66_normal_termination_is_announced.

(** With strict shutdown, an exception of one handler ends the loop: the other handlers are not even
    given the message, no message is received any more, and the subscriber stays open, so that
    its publishers wait for it. *)
Theorem C66_strict_failure_stops_the_others_refuted :
  exists (handlers : list nat) (x : state nat nat nat nat) (t : list (happening nat nat nat nat)),
  NoDup handlers /\ run handlers (fun _ => true) true false x t /\
  received t = [7] /\ In 1 handlers /\ ~ finished 1 t /\ given 1 t = [] /\ ~ In SubClosed t /\
  forall e, step (fun _ => true) true false x e = None.
Proof.
  exists [0; 1], (State [0; 1] Dead false []), [Received 7; Given 0 7; Ended 0 7 RaisesOther].
  split; [repeat constructor; simpl; intuition congruence|].
  split.
  - apply (run_step _ _ _ _ (State [0; 1] (Inside 7 0 [1]) false []) [Received 7; Given 0 7] (End RaisesOther)); [|reflexivity].
    apply (run_step _ _ _ _ (State [0; 1] (Between 7 [0; 1]) false []) [Received 7] (Call 0)); [|reflexivity].
    apply (run_step _ _ _ _ (init [0; 1]) [] (Recv 7)); [constructor|reflexivity].
  - split; [reflexivity|]. split; [simpl; auto|]. split.
    + intros (m & [Hi|Hi]); simpl in Hi; intuition discriminate.
    + split; [reflexivity|]. split; [simpl; intuition discriminate|]. intros []; reflexivity.
Qed.
Print Assumptions C66_strict_failure_stops_the_others_refuted.

(** ** A concrete case: two handlers, the first fails on 5, publishes and is done on 6; the second,
    called first for 6, goes on. *)
Definition case_trace : list (happening nat nat nat nat) :=
  [Received 5; Given 0 5; Ended 0 5 RaisesOther; Given 1 5; Ended 1 5 Returns; Released 5;
   Received 6; Given 1 6; Ended 1 6 Returns; Given 0 6; Yielded 0 3 60; Yielded 0 4 61; Ended 0 6 RaisesComplete; Released 6].

Fixpoint play (x : state nat nat nat nat) (es : list (event nat nat nat nat))
  : option (state nat nat nat nat * list (happening nat nat nat nat)) :=
  match es with
  | [] => Some (x, [])
  | e :: es => match step (fun s => Nat.eqb s 3) false false x e with
               | Some (x', a) => match play x' es with Some (y, t) => Some (y, a :: t) | None => None end
               | None => None
               end
  end.

Lemma play_run handlers x t es y u :
  run handlers (fun s => Nat.eqb s 3) false false x t -> play x es = Some (y, u) ->
  run handlers (fun s => Nat.eqb s 3) false false y (t ++ u).
Proof.
  revert x t u. induction es as [|e es IH]; intros x t u Hr E; cbn [play] in E.
  - injection E as <- <-. rewrite app_nil_r. exact Hr.
  - destruct (step _ _ _ x e) as [[x' a]|] eqn:Es; [|discriminate].
    destruct (play x' es) as [[y' u']|] eqn:Ep; [|discriminate]. injection E as <- <-.
    replace (t ++ a :: u') with ((t ++ [a]) ++ u') by (rewrite <- app_assoc; reflexivity).
    eapply IH; [|exact Ep]. eapply run_step; eassumption.
Qed.

Definition case_end : state nat nat nat nat := State [1] Waiting false [(3, 60)].

Lemma case_run : run [0; 1] (fun s => Nat.eqb s 3) false false case_end case_trace.
Proof.
  change case_trace with ([] ++ case_trace).
  eapply play_run with (x := init [0; 1])
    (es := [Recv 5; Call 0; End RaisesOther; Call 1; End Returns; Release;
            Recv 6; Call 1; End Returns; Call 0; Yield 3 60; Yield 4 61; End RaisesComplete; Release]).
  - constructor.
  - vm_compute. reflexivity.
Qed.

Example C66_case :
  run [0; 1] (fun s => Nat.eqb s 3) false false case_end case_trace /\ at_ case_end = Waiting /\
  finished_at 0 6 case_trace /\ ~ finished 1 case_trace /\ given 0 case_trace = [5; 6] /\ given 1 case_trace = [5; 6] /\
  published case_end = [(3, 60)].
Proof.
  split; [apply case_run|]. split; [reflexivity|].
  split; [left; do 12 right; left; reflexivity|].
  split; [intros (m & [Hi|Hi]); unfold case_trace in Hi; cbn [In] in Hi;
          repeat (destruct Hi as [Hi|Hi]; [discriminate Hi|]); destruct Hi|].
  split; [reflexivity|]. split; reflexivity.
Qed.
