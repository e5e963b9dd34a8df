(** C100: the command line. *)
From Coq Require Import String Ascii.
From Coq Require Import List Arith NArith ZArith Bool Strings.Byte Lia.
From Verif Require Import CodecModel AddressModel AddressProps CmdModel CmdSpec CmdProofs.
Import ListNotations.
Local Open Scope nat_scope.

(** Every command is about the server named with --address, else the one of the environment, else 127.0.0.1:25978. *)
Theorem C100_address : forall e a g, graph_address e a = Some g <-> names_server e a g.
Proof. exact names. Qed.
Print Assumptions C100_address.

(** The process that [ezmsg start] starts is about the server that [ezmsg start] was about, in whatever environment it
    finds itself, and with the same dashboard: it does what [ezmsg serve] with those arguments does. *)
Theorem C100_same_server : forall e a argv, start_child e a = Some (Some argv) -> exists a' g,
  parse_serve argv no_args = Some a' /\ dashboard_arg a' = dashboard_arg a /\ names_server e a g /\ (forall e', names_server e' a' g) /\
  forall l, handle_serve e l a' = handle_serve e l a.
Proof.
  intros e a argv H. destruct (child _ _ _ H) as [a' [g [P [D [G K]]]]]. exists a', g. split; [exact P|]. split; [exact D|]. split; [exact G|]. split; [exact K|].
  intros l. exact (same_serve e l a a' g D G (K e)).
Qed.
Print Assumptions C100_same_server.

(** [ezmsg start] starts nothing exactly when the dashboard is asked for and not installed. *)
Theorem C100_not_started : forall e a, start_child e a = Some None <-> (exists g, names_server e a g) /\ dashboard_arg a <> NoDash /\ installed e = false.
Proof. exact not_started. Qed.
Print Assumptions C100_not_started.

(** Whatever ends [ezmsg serve], a server it created is stopped, after the dashboard it started, which was at its place. *)
Theorem C100_stopped : forall e l a tr ok, handle_serve e l a = (tr, ok) -> dash_stop_ok l = true ->
  tr = [] \/ exists g, names_server e a g /\ (tr = [Created g; Stopped] \/
    exists p, dashboard_arg a <> NoDash /\ installed e = true /\ dashboard_place e g (dashboard_arg a) p /\ tr = [Created g; DashStarted p; DashStopped; Stopped]).
Proof. exact served. Qed.
Print Assumptions C100_stopped.

(** When all goes well, what was asked for is what runs. *)
Theorem C100_serves : forall e l a g, names_server e a g -> create_ok l g = true -> join_ends l <> Failed -> dash_stop_ok l = true ->
  (dashboard_arg a = NoDash -> handle_serve e l a = ([Created g; Stopped], true)) /\
  (forall p, dashboard_arg a <> NoDash -> installed e = true -> dashboard_place e g (dashboard_arg a) p -> dash_ok l p = true ->
     handle_serve e l a = ([Created g; DashStarted p; DashStopped; Stopped], true)).
Proof.
  intros e l a g G C J K. apply names in G. assert (Jf : (match join_ends l with Failed => false | _ => true end) = true) by (destruct (join_ends l); congruence).
  split.
  - intros D. unfold handle_serve. now rewrite G, C, D, Jf.
  - intros p D I P O. unfold handle_serve. rewrite G, C, I, K, Jf. cbn [negb].
    assert (A : dashboard_address e g (match dashboard_arg a with OnPort z => Some z | _ => None end) = Some p).
    { unfold dashboard_place in P. unfold dashboard_address. destruct p as [h q], (dashboard_arg a) as [| |z]; cbn [fst snd] in P; [congruence| |].
      - destruct (dash_env e) as [s|]; [now rewrite P|now rewrite <- P].
      - destruct P as [-> [q' P]]. destruct (dash_env e) as [s|]; [now rewrite P|now rewrite <- P]. }
    destruct (dashboard_arg a); [congruence| |]; rewrite A, O; reflexivity.
Qed.
Print Assumptions C100_serves.

(** A link to mermaid.ink is the base64 of the drawing's UTF-8. *)
Theorem C100_link_ink : forall dumps deflate g u, mermaid_url dumps deflate g (text "ink") = Some u ->
  exists b s, utf8_encode g = Some b /\ u = text "https://mermaid.ink/img/" ++ s /\ is_base64 b s.
Proof. exact link_ink. Qed.
Print Assumptions C100_link_ink.

(** The other links are the base64 of the deflated JSON. *)
Theorem C100_link_pako : forall dumps deflate g t u, mermaid_url dumps deflate g t = Some u -> t <> text "ink" ->
  exists b s, utf8_encode (dumps g) = Some b /\ is_base64 (deflate b) s /\
  ((t = text "live" /\ u = text "https://mermaid.live/edit#pako:" ++ s) \/ (t = text "play" /\ u = text "https://www.mermaidchart.com/play#pako:" ++ s)).
Proof. exact link_other. Qed.
Print Assumptions C100_link_pako.

(** base64 text says which bytes it is of. *)
Theorem C100_base64_unique : forall b b' s, is_base64 b s -> is_base64 b' s -> b = b'.
Proof. exact decodes_once. Qed.
Print Assumptions C100_base64_unique.

(** A link shows one drawing only. *)
Theorem C100_link_injective : forall dumps deflate g g' t u, (forall x y, dumps x = dumps y -> x = y) -> (forall x y, deflate x = deflate y -> x = y) ->
  mermaid_url dumps deflate g t = Some u -> mermaid_url dumps deflate g' t = Some u -> g = g'.
Proof. exact link_inj. Qed.
Print Assumptions C100_link_injective.

(** There is a link for each of the three targets. *)
Theorem C100_link_made : forall dumps deflate g t, (forall c, In c g -> scalar c = true) -> (forall c, In c (dumps g) -> scalar c = true) ->
  (exists u, mermaid_url dumps deflate g t = Some u) <-> In t [text "ink"; text "live"; text "play"].
Proof.
  intros dumps deflate g t Sg Sd. split.
  - intros [u H]. destruct (str_eqb t (text "ink")) eqn:E; [apply str_eqb_eq in E; left; auto|].
    assert (N : t <> text "ink") by (intros K; apply str_eqb_eq in K; congruence).
    destruct (link_other _ _ _ _ _ H N) as [_ [_ [_ [_ [[-> _]|[-> _]]]]]]; [right; left|right; right; left]; reflexivity.
  - intros I. destruct (mermaid_url dumps deflate g t) as [u|] eqn:E; [eauto|]. destruct (link_fails _ _ _ _ E Sg Sd I).
Qed.
Print Assumptions C100_link_made.

(** run_command serves, and starts a process that serves, at the address it is given, whatever the environment says. *)
Theorem C100_run_command : forall e g v, ~ In 58%N (fst g) ->
  (forall l, create_ok l g = true -> exists tr, fst (run_serve e l g v) = Created g :: tr) /\
  (forall argv, run_start e g v = Some (Some argv) -> exists a, parse_serve argv no_args = Some a /\
    (dashboard_arg a = match v with DNone => NoDash | DBool _ => AnyPort | DInt z => OnPort z end) /\ forall e', names_server e' a g) /\
  (run_start e g v = Some None <-> v <> DNone /\ installed e = false).
Proof.
  intros e [h p] v H. assert (B : forall e', names_server e' (command_args (h, p) v) (h, p)) by (intros e'; exact (C48_print_parse h p H)).
  split; [|split].
  - intros l C. pose proof (proj2 (names _ _ _) (B e)) as G. unfold run_serve, handle_serve. rewrite G, C. cbn [negb].
    destruct (dashboard_arg (command_args (h, p) v)); [eexists; reflexivity| |]; (destruct (negb (installed e)); [eexists; reflexivity|]);
      match goal with |- context [dashboard_address ?x ?y ?z] => destruct (dashboard_address x y z) as [d|] end; try (eexists; reflexivity);
      (destruct (negb (dash_ok l d)); [eexists; reflexivity|]); destruct (dash_stop_ok l); eexists; reflexivity.
  - intros argv S. destruct (child _ _ _ S) as [a' [g' [P [D [G K]]]]]. exists a'. split; [exact P|]. split; [exact D|].
    pose proof (proj2 (names _ _ _) (B e)) as G1. apply names in G. rewrite G1 in G. injection G as <-. exact K.
  - unfold run_start. rewrite not_started. split.
    + intros [_ [K I]]. split; [|exact I]. intros ->. now apply K.
    + intros [K I]. split; [eauto|]. split; [destruct v; [congruence|discriminate|discriminate]|exact I].
Qed.
Print Assumptions C100_run_command.

(** [ezmsg mermaid] prints the drawing first; it opens at most one page, none with --nobrowser, and that page is of the drawing it printed. *)
Theorem C100_opened : forall dumps deflate g n t out ok, handle_mermaid dumps deflate g n t = (out, ok) ->
  (exists rest, out = Printed g :: rest) /\
  (forall u, In (Opened u) out -> n = false /\ ok = true /\ mermaid_url dumps deflate g t = Some u) /\
  (n = true -> out = [Printed g] /\ ok = true) /\
  (n = false -> ok = true -> exists u, filter (fun x => match x with Opened _ => true | _ => false end) out = [Opened u]).
Proof.
  intros dumps deflate g n t out ok H. unfold handle_mermaid in H. destruct n.
  - injection H as <- <-. split; [eexists; reflexivity|]. split; [intros u [K|[]]; discriminate K|]. split; [auto|discriminate].
  - destruct (mermaid_url dumps deflate g t) as [u|]; injection H as <- <-.
    + split; [destruct (str_eqb t (text "live")); eexists; reflexivity|]. split; [|split; [discriminate|]].
      * intros u' I. split; [reflexivity|]. split; [reflexivity|]. apply in_app_or in I as [I|[K|[]]]; [|congruence].
        destruct (str_eqb t (text "live")); cbn in I; intuition discriminate.
      * intros _ _. exists u. destruct (str_eqb t (text "live")); reflexivity.
    + split; [destruct (str_eqb t (text "live")); eexists; reflexivity|]. split; [|split; [discriminate|discriminate]].
      intros u' I. destruct (str_eqb t (text "live")); cbn in I; intuition discriminate.
Qed.
Print Assumptions C100_opened.

(** C100 finding: run_command(..., dashboard=False) starts the dashboard: only None means that there is none. *)
Theorem C100_dashboard_false_refuted : ~ (forall e l g d, In (DashStarted d) (fst (run_serve e l g (DBool false))) -> False).
Proof.
  intros H. apply (H {| graph_env := None; dash_env := None; installed := true |}
    {| create_ok := fun _ => true; dash_ok := fun _ => true; join_ends := Interrupted; dash_stop_ok := true |} (text "h", 5%Z) (text "h", 6%Z)).
  vm_compute. tauto.
Qed.
Print Assumptions C100_dashboard_false_refuted.

(** C100 finding: an unknown --target is noticed only after the drawing was printed, and with --nobrowser not at all. *)
Theorem C100_unknown_target_refuted : ~ (forall dumps deflate g n t, ~ In t [text "ink"; text "live"; text "play"] -> handle_mermaid dumps deflate g n t = ([], false)).
Proof.
  intros H. specialize (H (fun x => x) (fun x => x) (text "g") true (text "pdf")). assert (K : ~ In (text "pdf") [text "ink"; text "live"; text "play"]).
  { vm_compute. intuition discriminate. }
  specialize (H K). discriminate H.
Qed.
Print Assumptions C100_unknown_target_refuted.

(** C100 finding: a link to mermaid.ink may have "/" in the drawing's part (the standard alphabet, not the URL-safe one), so that
    the drawing is cut into two path segments: of the text "ab?" the link ends in "YWI/". *)
Theorem C100_slash_refuted : ~ (forall dumps deflate g u s, (forall c, In c g -> (c < 128)%N) -> mermaid_url dumps deflate g (text "ink") = Some u ->
  u = text "https://mermaid.ink/img/" ++ s -> ~ In 47%N s).
Proof.
  intros H. refine (H (fun x => x) (fun x => x) (text "ab?") (text "https://mermaid.ink/img/YWI/") (text "YWI/") _ _ _ _).
  - intros c I. vm_compute in I. repeat (destruct I as [<-|I]; [reflexivity|]). destruct I.
  - vm_compute. reflexivity.
  - reflexivity.
  - vm_compute. tauto.
Qed.
Print Assumptions C100_slash_refuted.

(** C100 finding: the dashboard's port is the server's plus one, also for the last port: with the graph server on 65535 the
    dashboard is asked for on 65536, which is no port. *)
Theorem C100_last_port_refuted : ~ (forall e g p, (0 <= snd g <= 65535)%Z -> dashboard_address e g None = Some p -> (0 <= snd p <= 65535)%Z).
Proof.
  intros H. specialize (H {| graph_env := None; dash_env := None; installed := true |} (text "h", 65535%Z) (text "h", 65536%Z)). cbn [snd] in H.
  specialize (H ltac:(lia) eq_refl). lia.
Qed.
Print Assumptions C100_last_port_refuted.

(** C100 finding: if stopping the dashboard raises, the graph server is not stopped by [ezmsg serve]. *)
Theorem C100_not_stopped_refuted : ~ (forall e l a tr ok g, handle_serve e l a = (tr, ok) -> In (Created g) tr -> In Stopped tr).
Proof.
  intros H. specialize (H {| graph_env := None; dash_env := None; installed := true |}
    {| create_ok := fun _ => true; dash_ok := fun _ => true; join_ends := Interrupted; dash_stop_ok := false |}
    {| address_arg := None; dashboard_arg := AnyPort |} _ _ (text "127.0.0.1", 25978%Z) eq_refl). vm_compute in H.
  destruct (H (or_introl eq_refl)) as [K|[K|[]]]; discriminate K.
Qed.
Print Assumptions C100_not_stopped_refuted.

(** [ezmsg start --address host:5000 --dashboard -7]: the child's words, and what it does; a link whose base64 is padded. *)
Example C100_case :
  let e := {| graph_env := Some (text "other:1"); dash_env := None; installed := true |} in
  let l := {| create_ok := fun _ => true; dash_ok := fun _ => true; join_ends := Interrupted; dash_stop_ok := true |} in
  let a := {| address_arg := Some (text "host:5000"); dashboard_arg := OnPort (-7) |} in
  start_child e a = Some (Some [text "--address=host:5000"; text "--dashboard"; text "-7"]) /\
  parse_serve [text "--address=host:5000"; text "--dashboard"; text "-7"] no_args = Some a /\
  handle_serve e l a = ([Created (text "host", 5000%Z); DashStarted (text "host", (-7)%Z); DashStopped; Stopped], true) /\
  handle_serve e l {| address_arg := None; dashboard_arg := AnyPort |} = ([Created (text "other", 1%Z); DashStarted (text "other", 2%Z); DashStopped; Stopped], true) /\
  mermaid_url (fun x => x) (fun x => x) (text "flowchart") (text "ink") = Some (text "https://mermaid.ink/img/Zmxvd2NoYXJ0") /\
  mermaid_url (fun x => x) (fun x => x) (text "flow") (text "live") = Some (text "https://mermaid.live/edit#pako:Zmxvdw==") /\
  mermaid_url (fun x => x) (fun x => x) (text "flow") (text "pdf") = None.
Proof. vm_compute. repeat split; reflexivity. Qed.
