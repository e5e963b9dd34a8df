(** Lemmas for C79. *)
From Coq Require Import List NArith Arith Bool Lia Wellfounded Permutation.
From Coq Require Import Strings.Byte.
From Verif Require Import CodecModel CodecProofs StreamModel StreamProofs ApiModel ApiSpec.
Import ListNotations.

(** ** Requests *)
Lemma command_of_byte c : command_of_bytes [command_byte c] = Some c.
Proof. destruct (command_value_some c) as [b [E ->]]. now apply command_of_bytes_value. Qed.

Lemma write_args2 a1 a2 b ok : write_args [a1; a2] = (b, ok) ->
  (ok = true /\ exists b1 b2, encode_str a1 = Some b1 /\ encode_str a2 = Some b2 /\ b = b1 ++ b2) \/
  (ok = false /\ (encode_str a1 = None /\ b = [] \/ encode_str a1 = Some b /\ encode_str a2 = None)).
Proof.
  cbn. destruct (encode_str a1) as [x|]; [|intros H; injection H as <- <-; right; auto].
  destruct (encode_str a2) as [y|]; intros H; injection H as <- <-.
  - left. split; [reflexivity|]. exists x, y. now rewrite app_nil_r.
  - right. split; [reflexivity|]. right. now rewrite app_nil_r.
Qed.

Lemma request_sendable c : snd (write_request c) = true <-> sendable c.
Proof.
  unfold write_request. destruct (write_args (args_of c)) as [b ok] eqn:E. cbn [snd].
  destruct c as [f t|f t| | | |]; cbn [args_of sendable] in *; try (injection E as <- <-; tauto).
  all: apply write_args2 in E as [(-> & b1 & b2 & E1 & E2 & _)|(-> & [(E1 & _)|(E1 & E2)])];
    split; intros H; try discriminate; try congruence; try (rewrite E1, E2; split; discriminate);
    try reflexivity; destruct H as [H1 H2]; congruence.
Qed.

Lemma request_head c : exists b, fst (write_request c) = command_byte (command_of c) :: b.
Proof. unfold write_request. destruct (write_args (args_of c)) as [b ok]. eexists. reflexivity. Qed.

Lemma request_served c : served (command_of c) = true.
Proof. destruct c; reflexivity. Qed.

Lemma run_read_str_short {A} (f : pystr -> reader A) : exists r, run (bind read_str f) [] = Blocked r [].
Proof. unfold read_str. rewrite !run_bind. cbn. eexists. reflexivity. Qed.

(** The arguments, all that is written of them: they are read as written, or waited for. *)
Lemma args_full c b ok : write_request c = (command_byte (command_of c) :: b, ok) ->
  (ok = true /\ run (read_args (command_of c)) b = Done c []) \/
  (ok = false /\ exists r rest, run (read_args (command_of c)) b = Blocked r rest).
Proof.
  unfold write_request. destruct (write_args (args_of c)) as [b' ok'] eqn:E. intros H. injection H as -> ->.
  destruct c as [f t|f t| | | |]; cbn [args_of command_of read_args] in *;
    try (injection E as <- <-; left; split; reflexivity).
  all: apply write_args2 in E as [(-> & b1 & b2 & E1 & E2 & ->)|(-> & [(E1 & ->)|(E1 & E2)])];
    [left; split; [reflexivity|]|right; split; [reflexivity|]|right; split; [reflexivity|]].
  1,4: rewrite run_bind, (run_read_str _ _ _ E1), run_bind, <- (app_nil_r b2), (run_read_str _ _ _ E2); reflexivity.
  1,3: destruct (run_read_str_short (fun f => bind read_str (fun t => Ret (Connect f t)))) as [r R];
       destruct (run_read_str_short (fun f => bind read_str (fun t => Ret (Disconnect f t)))) as [r' R']; eauto.
  all: rewrite run_bind, <- (app_nil_r b), (run_read_str _ _ _ E1).
  - destruct (run_read_str_short (fun t => Ret (Connect f t))) as [r R]. eauto.
  - destruct (run_read_str_short (fun t => Ret (Disconnect f t))) as [r R]. eauto.
Qed.

Lemma args_prefix c op p q x rest : fst (write_request c) = command_byte op :: p ++ q ->
  run (read_args op) p = Done x rest -> snd (write_request c) = true /\ x = c /\ rest = [] /\ q = [].
Proof.
  intros W R. destruct (request_head c) as [b B]. rewrite B in W. injection W as W0 W1. apply command_byte_inj in W0 as <-.
  destruct (write_request c) as [b' ok] eqn:E. cbn [fst snd] in *. subst b' b.
  pose proof (run_app (read_args (command_of c)) p q) as A. rewrite R in A.
  destruct (args_full _ _ _ E) as [[-> F]|[-> (r & rest' & F)]]; rewrite F in A; [|discriminate].
  injection A as <- A. symmetry in A. apply app_eq_nil in A as [-> ->]. auto.
Qed.

Lemma args_not_failed c op p q : fst (write_request c) = command_byte op :: p ++ q -> run (read_args op) p <> Failed.
Proof.
  intros W R. destruct (request_head c) as [b B]. rewrite B in W. injection W as W0 W1. apply command_byte_inj in W0 as <-.
  destruct (write_request c) as [b' ok] eqn:E. cbn [fst snd] in *. subst b' b.
  pose proof (run_app (read_args (command_of c)) p q) as A. rewrite R in A.
  destruct (args_full _ _ _ E) as [[-> F]|[-> (r & rest' & F)]]; rewrite F in A; discriminate.
Qed.

(** What a reader leaves is the end of what there was. *)
Lemma run_rest {A} (r : reader A) : forall b a rest, run r b = Done a rest -> exists p, b = p ++ rest.
Proof.
  induction r as [a| |n k IH]; intros b a' rest; cbn [run].
  - intros H. injection H as <- <-. now exists [].
  - discriminate.
  - destruct (n <=? length b); [|discriminate]. intros H. apply IH in H as [p P].
    exists (firstn n b ++ p). rewrite <- app_assoc, <- P. symmetry. apply firstn_skipn.
Qed.

(** Reading a beginning of what is known. *)
Lemma run_prefix {A} (r : reader A) b t v y a rest : run r b = Done a rest -> run r (v ++ y) = Done (a) y ->
  b ++ t = v ++ y -> b = v ++ rest.
Proof.
  intros R1 R2 E. pose proof (run_app r b t) as X. rewrite R1, E, R2 in X. injection X as X. subst y.
  destruct (run_rest r b a rest R1) as [p ->]. rewrite <- app_assoc in E. now apply app_inv_tail in E as ->.
Qed.

Lemma app_self {A} (a b : list A) : a ++ b = a -> b = [].
Proof. intros H. apply (app_inv_head a). now rewrite app_nil_r. Qed.

Section Api.
Variable G : Type.
Variable connect_g : pystr -> pystr -> G -> G * bool.
Variable disconnect_g : pystr -> pystr -> G -> G.
Variable dumps : G -> bytes.
Variable loads : bytes -> option G.
Variable version : pystr.
Variable v : bytes.
Hypothesis greeting : encode_str version = Some v.
Hypothesis pickle : forall g, loads (dumps g) = Some g.

Notation mark := (mark G). Notation world := (world G). Notation conn := (conn G).
Notation Took := (Took G). Notation Called := (Called G). Notation Told := (Told G).
Notation NotSent := (NotSent G). Notation Confirmed := (Confirmed G). Notation Changed := (Changed G). Notation Lost := (Lost G).
Notation GaveUp := (GaveUp G). Notation Dropped := (Dropped G). Notation CameBack := (CameBack G).
Notation apply := (apply G connect_g disconnect_g).
Notation write_answer := (write_answer G dumps).
Notation step := (step G connect_g disconnect_g dumps loads version).
Notation steps := (steps G connect_g disconnect_g dumps loads version).
Notation explains := (explains G connect_g disconnect_g dumps).
Notation justified := (justified G).
Notation in_order := (in_order G).
Notation performs := (performs G connect_g disconnect_g).
Notation duties := (duties G).
Notation too_big := (too_big G dumps).

(** ** Answers *)
Definition fits (c : call) (a : answer G) : Prop :=
  match c, a with
  | Connect _ _, ADone _ | Connect _ _, ACyclic _ | Disconnect _ _, ADone _ | Sync, ADone _ => True
  | Pause, ANone _ | Resume, ANone _ | Dag, ADag _ _ => True
  | _, _ => False
  end.

Lemma apply_fits c g : fits c (snd (apply c g)).
Proof. destruct c; cbn; auto. destruct (connect_g f t g) as [g' []]; exact I. Qed.

Lemma apply_performs c g : performs c g (fst (apply c g)) (snd (apply c g)).
Proof. destruct c; cbn; try constructor. destruct (connect_g f t g) as [g' []] eqn:E; cbn; now constructor. Qed.

Lemma answer_none c g : write_answer (snd (apply c g)) = None -> c = Dag /\ too_big g.
Proof.
  destruct c; cbn; try discriminate; [destruct (connect_g f t g) as [g' []]; discriminate|].
  destruct (uint64_to_bytes (N.of_nat (length (dumps g)))) eqn:E; [discriminate|]. intros _. split; [reflexivity|].
  unfold ApiSpec.too_big. destruct (N.le_gt_cases (2 ^ 64) (N.of_nat (length (dumps g)))) as [L|L]; [exact L|].
  apply uint64_some in L as [b B]. congruence.
Qed.

Lemma dag_answer g b : write_answer (ADag G g) = Some b -> forall rest, run read_dag (b ++ rest) = Done (dumps g) (command_byte COMPLETE :: rest).
Proof.
  cbn [ApiModel.write_answer]. destruct (uint64_to_bytes _) as [n|] eqn:E; [|discriminate]. intros H rest. injection H as <-.
  unfold read_dag. cbn [app]. change (command_byte DAG :: (n ++ dumps g ++ [command_byte COMPLETE]) ++ rest)
    with ([command_byte DAG] ++ ((n ++ dumps g ++ [command_byte COMPLETE]) ++ rest)).
  rewrite run_read_n by reflexivity. rewrite <- app_assoc, run_bind, (run_read_int _ _ _ E).
  rewrite <- app_assoc, run_read_n by now rewrite Nat2N.id. reflexivity.
Qed.

Lemma read_dag_not_failed b : run read_dag b <> Failed.
Proof.
  unfold read_dag. cbn [run]. destruct (1 <=? length b); [|discriminate]. rewrite run_bind. unfold read_int at 1. cbn [run].
  destruct (UINT64_SIZE <=? _); [|discriminate]. cbn [run]. destruct (_ <=? _); discriminate.
Qed.

(** ** Who a mark is about *)
Definition owner (m : mark) : option nat :=
  match m with
  | ApiModel.Called _ i _ | ApiModel.Told _ i _ _ | ApiModel.Confirmed _ i _ | ApiModel.Took _ i _ _
  | ApiModel.NotSent _ i _ | ApiModel.Lost _ i | ApiModel.GaveUp _ i | ApiModel.Dropped _ i | ApiModel.CameBack _ i _ => Some i
  | ApiModel.Changed _ _ _ => None
  end.

(** ** One connection *)
Definition untaken (i : nat) (h : list mark) : Prop := forall c a, ~ In (Took i c a) h.
Definition answered (i : nat) (c : call) (h : list mark) (produced : bytes) : Prop :=
  exists a b, In (Took i c a) h /\ write_answer a = Some b /\ fits c a /\ produced = v ++ b.

Definition stage (i : nat) (c : conn) (h : list mark) (eaten produced : bytes) : Prop :=
  let req := fst (write_request (what G c)) in
  match srv G c with
  | Fresh => eaten = [] /\ produced = [] /\ untaken i h
  | Asked => eaten = [] /\ produced = v /\ untaken i h
  | InLine op => eaten = [command_byte op] /\ produced = v /\ untaken i h
  | Syncing todo => eaten = req /\ produced = v /\ untaken i h /\ what G c = Sync /\ todo <> []
  | Answered => eaten = req /\ answered i (what G c) h produced
  | Closed => (eaten = req /\ answered i (what G c) h produced) \/
              (eaten = [] /\ sbuf G c = [] /\ up G c = [] /\ up_end G c = true /\ produced = v /\ untaken i h)
  | Broken => untaken i h /\
              ((produced = v /\ (exists op, eaten = [command_byte op]) /\ up_end G c = true /\ up G c = [] /\
                forall x rest op, eaten = [command_byte op] -> run (read_args op) (sbuf G c) <> Done x rest) \/
               (what G c = Dag /\ (exists g, In (NotSent i g) h /\ too_big g) /\ produced = v ++ [command_byte DAG] /\ eaten = req))
  end.

Definition lost (i : nat) (h : list mark) : Prop := In (Lost i) h.
Definition is_over (c : conn) : Prop := exists r, cli G c = Over G r.

(** What came down: [got] was read by the caller. *)
Definition came_down (i : nat) (c : conn) (h : list mark) (got produced : bytes) : Prop :=
  exists tail, got ++ cbuf G c ++ down G c ++ tail = produced /\ (lost i h \/ tail = []).

Record Good (i : nat) (c : conn) (h : list mark) : Prop := {
  g_called : forall x, In (Called i x) h <-> x = what G c;
  g_back : forall r, In (CameBack i r) h <-> cli G c = Over G r;
  g_up_end : up_end G c = true -> lost i h \/ is_over c;
  g_down_end : down_end G c = true -> lost i h \/ srv G c = Closed;
  g_lost : lost i h -> up_end G c = true /\ down_end G c = true;
  g_dropped : In (Dropped i) h -> up_end G c = true;
  g_bytes : exists eaten produced tail,
    stage i c h eaten produced /\
    eaten ++ sbuf G c ++ up G c ++ tail = fst (write_request (what G c)) /\
    (lost i h \/ eaten ++ sbuf G c ++ up G c = [] \/ tail = []) /\
    match cli G c with
    | Opening _ => eaten ++ sbuf G c ++ up G c = [] /\ came_down i c h [] produced
    | Waiting _ => (lost i h \/ tail = []) /\ snd (write_request (what G c)) = true /\ came_down i c h v produced /\
                   match what G c with Pause | Resume => False | _ => True end
    | Over _ (Returned _ _) => (lost i h \/ tail = []) /\ snd (write_request (what G c)) = true
    | Over _ _ => True
    end }.

Lemma in_other (P : mark) i h l : (forall m, In m l -> owner m <> Some i) -> owner P = Some i -> In P (h ++ l) <-> In P h.
Proof. intros N O. rewrite in_app_iff. split; [|tauto]. intros [H|H]; [exact H|]. exfalso. exact (N _ H O). Qed.

(** What happens to others does not matter. *)
Lemma Good_frame i c h l : Good i c h -> (forall m, In m l -> owner m <> Some i) -> Good i c (h ++ l).
Proof.
  intros [A1 A2 A3 A4 A4' A5 (eaten & produced & tail & S & U & T & D)] N.
  assert (L : lost i (h ++ l) <-> lost i h) by (apply (in_other (Lost i) i); [exact N|reflexivity]).
  assert (Un : untaken i h -> untaken i (h ++ l)).
  { intros X x a I. apply (X x a). apply (in_other (Took i x a) i h l N); [reflexivity|exact I]. }
  assert (An : forall y p, answered i y h p -> answered i y (h ++ l) p).
  { intros y p (a & b & I & R). exists a, b. split; [apply in_app_iff; left; exact I|exact R]. }
  assert (Cd : forall g p, came_down i c h g p -> came_down i c (h ++ l) g p).
  { intros g p (t & E & Z). exists t. rewrite L. split; [exact E|exact Z]. }
  constructor.
  - intros x. rewrite (in_other (Called i x) i h l N eq_refl). apply A1.
  - intros r. rewrite (in_other (CameBack i r) i h l N eq_refl). apply A2.
  - intros E. rewrite L. apply A3, E.
  - intros E. rewrite L. apply A4, E.
  - rewrite L. exact A4'.
  - rewrite (in_other (Dropped i) i h l N eq_refl). exact A5.
  - exists eaten, produced, tail. rewrite L. split; [|split; [exact U|split; [exact T|]]].
    + unfold stage in *. destruct (srv G c); try (intuition auto; fail).
      destruct S as [S [S1|(S1 & (g & S2 & S3) & S4)]]; (split; [auto|]); [left; exact S1|right]. split; [exact S1|].
      split; [|exact S4]. exists g. split; [apply in_app_iff; left; exact S2|exact S3].
    + destruct (cli G c) as [| |[]]; intuition auto.
Qed.

Lemma stage_same i c c' h l e p : stage i c h e p ->
  srv G c' = srv G c -> what G c' = what G c ->
  (up_end G c = true -> up G c = [] -> sbuf G c' = sbuf G c /\ up G c' = []) ->
  (up_end G c = true -> up_end G c' = true) ->
  (forall x a, ~ In (Took i x a) l) -> stage i c' (h ++ l) e p.
Proof.
  intros S Es Ew Eu Ee N.
  assert (Un : untaken i h -> untaken i (h ++ l)).
  { intros X x a I. apply in_app_iff in I as [I|I]; [exact (X x a I)|exact (N x a I)]. }
  assert (An : forall y q, answered i y h q -> answered i y (h ++ l) q).
  { intros y q (a & b & I & R). exists a, b. split; [apply in_app_iff; left; exact I|exact R]. }
  unfold stage in *. rewrite Es, Ew. destruct (srv G c); try (intuition auto; fail).
  - destruct S as [S|(S1 & S2 & S3 & S4 & S5 & S6)]; [left; intuition auto|right].
    destruct (Eu S4 S3) as [-> ->]. auto 7.
  - destruct S as [S [(S1 & S2 & S3 & S4 & S5)|(S1 & (g & S2 & S3) & S4)]]; (split; [auto|]); [left|right].
    + destruct (Eu S3 S4) as [-> ->]. auto 7.
    + split; [exact S1|]. split; [|exact S4]. exists g. split; [apply in_app_iff; left; exact S2|exact S3].
Qed.

Lemma in_snoc_other (P Q : mark) h : P <> Q -> In P (h ++ [Q]) <-> In P h.
Proof. intros N. rewrite in_app_iff. cbn. split; [|tauto]. intros [H|[H|[]]]; [exact H|congruence]. Qed.

Lemma Good_arrive_up i c h n : Good i c h -> 0 < n -> n <= length (up G c) ->
  Good i (Conn G (what G c) (cli G c) (skipn n (up G c)) (up_end G c) (sbuf G c ++ firstn n (up G c)) (srv G c)
               (down G c) (down_end G c) (cbuf G c)) h.
Proof.
  intros [A1 A2 A3 A4 A4' A5 (eaten & produced & tail & S & U & T & D)] N0 N.
  assert (E : eaten ++ (sbuf G c ++ firstn n (up G c)) ++ skipn n (up G c) = eaten ++ sbuf G c ++ up G c).
  { now rewrite <- app_assoc, firstn_skipn. }
  assert (E' : eaten ++ (sbuf G c ++ firstn n (up G c)) ++ skipn n (up G c) ++ tail = eaten ++ sbuf G c ++ up G c ++ tail).
  { rewrite <- app_assoc, (app_assoc (firstn n (up G c))), firstn_skipn. reflexivity. }
  constructor; try assumption. exists eaten, produced, tail. cbn [what cli up up_end sbuf srv down down_end cbuf].
  rewrite E, E'. split; [|split; [exact U|split; [exact T|exact D]]].
  rewrite <- (app_nil_r h). apply (stage_same i c); try reflexivity; auto.
  intros _ Z. rewrite Z in N. cbn in N. lia.
Qed.

Lemma Good_arrive_down i c h n : Good i c h ->
  Good i (Conn G (what G c) (cli G c) (up G c) (up_end G c) (sbuf G c) (srv G c)
               (skipn n (down G c)) (down_end G c) (cbuf G c ++ firstn n (down G c))) h.
Proof.
  intros [A1 A2 A3 A4 A4' A5 (eaten & produced & tail & S & U & T & D)].
  assert (E : forall g q, came_down i c h g q -> came_down i (Conn G (what G c) (cli G c) (up G c) (up_end G c) (sbuf G c) (srv G c)
               (skipn n (down G c)) (down_end G c) (cbuf G c ++ firstn n (down G c))) h g q).
  { intros g q (t & X & Y). exists t. split; [|exact Y]. cbn [down cbuf].
    rewrite <- app_assoc, (app_assoc (firstn n (down G c))), firstn_skipn. exact X. }
  constructor; try assumption. exists eaten, produced, tail. cbn [what cli up up_end sbuf srv].
  split; [exact S|split; [exact U|split; [exact T|]]]. destruct (cli G c) as [| |[]]; intuition auto.
Qed.

Lemma Good_lose i c h n : Good i c h ->
  Good i (Conn G (what G c) (cli G c) [] true (sbuf G c) (srv G c) (firstn n (down G c)) true (cbuf G c)) (h ++ [Lost i]).
Proof.
  intros [A1 A2 A3 A4 A4' A5 (eaten & produced & tail & S & U & T & D)].
  assert (L : lost i (h ++ [Lost i])) by (apply in_app_iff; right; left; reflexivity).
  assert (E : forall g q, came_down i c h g q -> came_down i (Conn G (what G c) (cli G c) [] true (sbuf G c) (srv G c)
               (firstn n (down G c)) true (cbuf G c)) (h ++ [Lost i]) g q).
  { intros g q (t & X & Y). exists (skipn n (down G c) ++ t). split; [|left; exact L]. cbn [down cbuf].
    rewrite (app_assoc (firstn n (down G c))), firstn_skipn. exact X. }
  constructor; cbn [what cli up up_end sbuf srv down down_end cbuf].
  - intros x. rewrite in_snoc_other by discriminate. apply A1.
  - intros r. rewrite in_snoc_other by discriminate. apply A2.
  - auto.
  - auto.
  - auto.
  - auto.
  - exists eaten, produced, (up G c ++ tail). cbn [app]. split; [|split; [exact U|split; [left; exact L|]]].
    + apply (stage_same i c); try reflexivity; auto. intros x a [X|[]]. discriminate.
    + destruct (cli G c) as [| |[]]; try tauto; cbn [app].
      * destruct D as [D1 D2]. split; [|apply E, D2]. apply app_eq_nil in D1 as [-> D1]. apply app_eq_nil in D1 as [-> _]. reflexivity.
      * destruct D as (D1 & D2 & D3 & D4). auto.
Qed.

(** The caller gets an exception, or gives up. *)
Lemma Good_raise i c h r l : Good i c h -> ~ is_over c -> (r = RaisedOther G \/ r = RaisedCyclic G) ->
  (l = [] \/ l = [GaveUp i]) -> forall e b, (e = up_end G c \/ e = true) ->
  Good i (Conn G (what G c) (Over G r) (up G c) e (sbuf G c) (srv G c) (down G c) (down_end G c) b) ((h ++ l) ++ [CameBack i r]).
Proof.
  intros [A1 A2 A3 A4 A4' A5 (eaten & produced & tail & S & U & T & D)] O R Hl e b He.
  assert (NL : forall P, owner P = Some i -> (P <> GaveUp i) -> In P (h ++ l) <-> In P h).
  { intros P OP NP. rewrite in_app_iff. split; [|tauto]. intros [X|X]; [exact X|]. destruct Hl as [->| ->]; [destruct X|].
    destruct X as [X|[]]. congruence. }
  assert (L : lost i ((h ++ l) ++ [CameBack i r]) <-> lost i h).
  { unfold lost. rewrite in_snoc_other by discriminate. apply NL; [reflexivity|discriminate]. }
  constructor; cbn [what cli up up_end sbuf srv down down_end cbuf].
  - intros x. rewrite in_snoc_other by discriminate. rewrite NL; [apply A1|reflexivity|discriminate].
  - intros r'. rewrite in_app_iff, NL by (reflexivity || discriminate). rewrite A2. split.
    + intros [X|[X|[]]]; [exfalso; apply O; eexists; exact X|]. injection X as ->. reflexivity.
    + intros X. injection X as ->. right. left. reflexivity.
  - intros _. right. eexists. reflexivity.
  - rewrite L. exact A4.
  - rewrite L. intros X. destruct (A4' X) as [X1 X2]. destruct He as [->| ->]; auto.
  - rewrite in_snoc_other by discriminate. rewrite NL by (reflexivity || discriminate). intros X.
    destruct He as [->| ->]; [apply A5, X|reflexivity].
  - exists eaten, produced, tail. rewrite L. split; [|split; [exact U|split; [exact T|]]].
    + rewrite <- app_assoc. apply (stage_same i c); try reflexivity; auto; cbn [up_end].
      * intros X. destruct He as [->| ->]; auto.
      * intros x a X. apply in_app_iff in X as [X|[X|[]]]; [|discriminate].
        destruct Hl as [->| ->]; [destruct X|destruct X as [X|[]]; discriminate].
    + destruct R as [->| ->]; exact I.
Qed.

Lemma Good_close i c h : Good i c h -> is_over c ->
  Good i (close G c) (h ++ [Dropped i]).
Proof.
  intros [A1 A2 A3 A4 A4' A5 (eaten & produced & tail & S & U & T & D)] O.
  assert (L : lost i (h ++ [Dropped i]) <-> lost i h) by (apply in_snoc_other; discriminate).
  constructor; cbn [close what cli up up_end sbuf srv down down_end cbuf].
  - intros x. rewrite in_snoc_other by discriminate. apply A1.
  - intros r'. rewrite in_snoc_other by discriminate. apply A2.
  - intros _. right. exact O.
  - rewrite L. exact A4.
  - rewrite L. intros X. destruct (A4' X). auto.
  - auto.
  - exists eaten, produced, tail. rewrite L. split; [|split; [exact U|split; [exact T|]]].
    + apply (stage_same i c); try reflexivity; auto. intros x a [X|[]]. discriminate.
    + destruct O as [r E]. rewrite E in D |- *. destruct r; try exact I. rewrite L. exact D.
Qed.

(** The caller has the greeting and writes its request. *)
Lemma Good_write i c h rest : Good i c h -> cli G c = Opening G -> run read_str (cbuf G c) = Done version rest ->
  snd (write_request (what G c)) = true ->
  match what G c with
  | Pause | Resume =>
      Good i (set_cli G (close G (write_up G (set_cbuf G c rest) (fst (write_request (what G c))))) (Over G (Returned G None)))
             (h ++ [CameBack i (Returned G None)])
  | _ => Good i (set_cli G (write_up G (set_cbuf G c rest) (fst (write_request (what G c)))) (Waiting G)) h
  end.
Proof.
  intros [A1 A2 A3 A4 A4' A5 (eaten & produced & tail & S & U & T & D)] O R K. rewrite O in D. destruct D as [D0 (t & D1 & D2)].
  cbn [app] in D1. apply app_eq_nil in D0 as [-> D0]. apply app_eq_nil in D0 as [Es Eu]. rewrite Es, Eu in *. cbn [app] in *.
  pose proof (run_app read_str (cbuf G c) (down G c ++ t)) as RA. rewrite R, D1 in RA.
  (* the caller has read exactly the greeting *)
  assert (Gr : cbuf G c = v ++ rest).
  { assert (Q : exists y, produced = v ++ y).
    { unfold stage in S. destruct (srv G c) as [| |op|todo| | |].
      - destruct S as (_ & E & _). rewrite E in RA. discriminate.
      - destruct S as (_ & -> & _). exists []. now rewrite app_nil_r.
      - destruct S as (_ & -> & _). exists []. now rewrite app_nil_r.
      - destruct S as (_ & -> & _). exists []. now rewrite app_nil_r.
      - destruct S as [_ (a & b & _ & _ & _ & ->)]. eauto.
      - destruct S as [[_ (a & b & _ & _ & _ & ->)]|(_ & _ & _ & _ & -> & _)]; eauto. exists []. now rewrite app_nil_r.
      - destruct S as [_ [(-> & _)|(_ & _ & -> & _)]]; eauto. exists []. now rewrite app_nil_r. }
    destruct Q as [y ->]. apply (run_prefix read_str (cbuf G c) (down G c ++ t) v y version rest); auto.
    now apply run_read_str. }
  assert (Cd : forall c', cbuf G c' = rest -> down G c' = down G c -> came_down i c' h v produced).
  { intros c' X1 X2. exists t. split; [|exact D2]. rewrite X1, X2. rewrite <- D1, Gr, <- app_assoc. reflexivity. }
  set (b := fst (write_request (what G c))) in *.
  assert (Ne : b <> []) by (unfold b; destruct (request_head (what G c)) as [x ->]; discriminate).
  (* whether the connection is lost or not *)
  set (e := up_end G c) in *.
  assert (Le : e = true -> lost i h).
  { intros X. destruct (A3 X) as [X'|[r X']]; [exact X'|congruence]. }
  assert (St : forall c' h', srv G c' = srv G c -> what G c' = what G c -> (e = true -> sbuf G c' = [] /\ up G c' = []) ->
             (e = true -> up_end G c' = true) -> (forall x a, ~ In (Took i x a) h') -> stage i c' (h ++ h') [] produced).
  { intros c' h' X1 X2 X3 X4 N. apply (stage_same i c); auto. intros E _. rewrite Es. apply X3, E. }
  assert (Main : Good i (set_cli G (write_up G (set_cbuf G c rest) b) (Waiting G)) h \/ what G c = Pause \/ what G c = Resume).
  { assert (W : what G c = Pause \/ what G c = Resume \/ match what G c with Pause | Resume => False | _ => True end)
      by (destruct (what G c); auto).
    destruct W as [W|[W|W]]; auto. left.
    constructor; cbn [set_cli write_up set_cbuf what cli up up_end sbuf srv down down_end cbuf]; fold e.
    - exact A1.
    - intros r. rewrite A2, O. split; discriminate.
    - intros X. left. auto.
    - exact A4.
    - exact A4'.
    - exact A5.
    - rewrite Es, Eu. cbn [app]. exists [], produced, (if e then b else []). cbn [app].
      split; [rewrite <- (app_nil_r h); apply St; auto; cbn [set_cli write_up set_cbuf sbuf up up_end]; fold e; intros ->; auto|]. destruct e.
      + split; [reflexivity|]. split; [left; auto|]. split; [left; auto|]. split; [exact K|split; [apply Cd; reflexivity|exact W]].
      + split; [apply app_nil_r|]. split; [right; right; reflexivity|]. split; [right; reflexivity|].
        split; [exact K|split; [apply Cd; reflexivity|exact W]]. }
  assert (Fast : Good i (set_cli G (close G (write_up G (set_cbuf G c rest) b)) (Over G (Returned G None))) (h ++ [CameBack i (Returned G None)])).
  { assert (L : lost i (h ++ [CameBack i (Returned G None)]) <-> lost i h) by (apply in_snoc_other; discriminate).
    constructor; cbn [set_cli close write_up set_cbuf what cli up up_end sbuf srv down down_end cbuf]; fold e.
    - intros x. rewrite in_snoc_other by discriminate. apply A1.
    - intros r. rewrite in_app_iff, A2, O. split.
      + intros [X|[X|[]]]; [discriminate|]. injection X as <-. reflexivity.
      + intros X. injection X as <-. right. left. reflexivity.
    - intros _. right. eexists. reflexivity.
    - rewrite L. exact A4.
    - rewrite L. intros X. destruct (A4' X). auto.
    - auto.
    - rewrite Es, Eu. cbn [app]. exists [], produced, (if e then b else []). cbn [app]. rewrite L.
      split; [apply St; auto; [cbn [set_cli close write_up set_cbuf sbuf up up_end]; fold e; intros ->; auto|intros x a [X|[]]; discriminate]|]. destruct e.
      + split; [reflexivity|]. split; [left; auto|]. split; [left; auto|exact K].
      + split; [apply app_nil_r|]. split; [right; right; reflexivity|]. split; [right; reflexivity|exact K]. }
  destruct (what G c) eqn:W; auto; destruct Main as [M|[M|M]]; auto; discriminate.
Qed.

(** The caller has the greeting, but one of its topics cannot be written. *)
Lemma Good_write_fails i c h rest : Good i c h -> cli G c = Opening G -> run read_str (cbuf G c) = Done version rest ->
  snd (write_request (what G c)) = false ->
  Good i (set_cli G (write_up G (set_cbuf G c rest) (fst (write_request (what G c)))) (Over G (RaisedOther G)))
             (h ++ [CameBack i (RaisedOther G)]).
Proof.
  intros [A1 A2 A3 A4 A4' A5 (eaten & produced & tail & S & U & T & D)] O R K. rewrite O in D. destruct D as [D0 (t & D1 & D2)].
  apply app_eq_nil in D0 as [-> D0]. apply app_eq_nil in D0 as [Es Eu]. rewrite Es, Eu in *. cbn [app] in *.
  set (b := fst (write_request (what G c))) in *.
  set (e := up_end G c) in *.
  assert (Le : e = true -> lost i h).
  { intros X. destruct (A3 X) as [X'|[r X']]; [exact X'|congruence]. }
  assert (L : lost i (h ++ [CameBack i (RaisedOther G)]) <-> lost i h) by (apply in_snoc_other; discriminate).
  constructor; cbn [set_cli write_up set_cbuf what cli up up_end sbuf srv down down_end cbuf]; fold e.
  - intros x. rewrite in_snoc_other by discriminate. apply A1.
  - intros r. rewrite in_app_iff, A2, O. split.
    + intros [X|[X|[]]]; [discriminate|]. injection X as <-. reflexivity.
    + intros X. injection X as <-. right. left. reflexivity.
  - intros _. right. eexists. reflexivity.
  - rewrite L. exact A4.
  - rewrite L. exact A4'.
  - rewrite in_snoc_other by discriminate. exact A5.
  - rewrite Es, Eu. cbn [app]. exists [], produced, (if e then b else []). cbn [app]. rewrite L. split; [|destruct e].
    + apply (stage_same i c); auto; cbn [set_cli write_up set_cbuf sbuf up up_end]; fold e.
      * intros -> _. rewrite Es, Eu. auto.
      * intros x a [X|[]]. discriminate.
    + split; [reflexivity|]. split; [left; auto|exact I].
    + split; [apply app_nil_r|]. split; [right; right; reflexivity|exact I].
Qed.

(** The caller has its answer. *)
Lemma Good_return i c h x b : Good i c h -> cli G c = Waiting G ->
  Good i (Conn G (what G c) (Over G (Returned G x)) (up G c) true (sbuf G c) (srv G c) (down G c) (down_end G c) b)
         (h ++ [CameBack i (Returned G x)]).
Proof.
  intros [A1 A2 A3 A4 A4' A5 (eaten & produced & tail & S & U & T & D)] O. rewrite O in D. destruct D as (D1 & D2 & D3 & D4).
  assert (L : lost i (h ++ [CameBack i (Returned G x)]) <-> lost i h) by (apply in_snoc_other; discriminate).
  constructor; cbn [what cli up up_end sbuf srv down down_end cbuf].
  - intros y. rewrite in_snoc_other by discriminate. apply A1.
  - intros r. rewrite in_app_iff, A2, O. split.
    + intros [X|[X|[]]]; [discriminate|]. injection X as <-. reflexivity.
    + intros X. injection X as <-. right. left. reflexivity.
  - intros _. right. eexists. reflexivity.
  - rewrite L. exact A4.
  - rewrite L. intros X. destruct (A4' X). auto.
  - auto.
  - exists eaten, produced, tail. rewrite L. split; [|auto].
    apply (stage_same i c); auto. intros y a [X|[]]. discriminate.
Qed.

Lemma v_long : v <> [].
Proof.
  intros E. rewrite E in greeting. pose proof (run_read_str _ _ [] greeting) as R. discriminate R.
Qed.

Lemma Good_greet i c h : Good i c h -> srv G c = Fresh -> Good i (set_srv G (write_down G c v) Asked) h.
Proof.
  intros [A1 A2 A3 A4 A4' A5 (eaten & produced & tail & S & U & T & D)] F.
  unfold stage in S. rewrite F in S. destruct S as (-> & -> & S).
  constructor; cbn [set_srv write_down what cli up up_end sbuf srv down down_end cbuf]; try assumption.
  { intros X. destruct (A4 X) as [Y|Y]; [left; exact Y|congruence]. }
  exists [], v, tail. split; [split; [reflexivity|split; [reflexivity|exact S]]|]. split; [exact U|]. split; [exact T|].
  destruct (cli G c) as [| |[]] eqn:C; auto.
  - destruct D as [D1 (t & D2 & D3)]. split; [exact D1|]. cbn [app] in D2. apply app_eq_nil in D2 as [E1 E2].
    apply app_eq_nil in E2 as [E2 E3]. unfold came_down. cbn [set_srv write_down cbuf down app]. rewrite E1, E2. cbn [app].
    destruct (down_end G c) eqn:De.
    + exists v. split; [reflexivity|]. left. destruct (A4 eq_refl) as [Y|Y]; [exact Y|congruence].
    + exists []. split; [apply app_nil_r|right; reflexivity].
  - exfalso. destruct D as (_ & _ & (t & D & _) & _). apply app_eq_nil in D as [D _]. exact (v_long D).
Qed.

Lemma server_at_end_true (c : conn) : server_at_end G c = true -> up_end G c = true /\ up G c = [].
Proof. unfold server_at_end. destruct (up_end G c); [|discriminate]. destruct (up G c); [auto|discriminate]. Qed.
Lemma client_at_end_true (c : conn) : client_at_end G c = true -> down_end G c = true /\ down G c = [].
Proof. unfold client_at_end. destruct (down_end G c); [|discriminate]. destruct (down G c); [auto|discriminate]. Qed.

Lemma Good_eof i c h : Good i c h -> srv G c = Asked -> sbuf G c = [] -> server_at_end G c = true ->
  Good i (hang_up G (set_srv G c Closed)) h.
Proof.
  intros [A1 A2 A3 A4 A4' A5 (eaten & produced & tail & S & U & T & D)] F E0 E. apply server_at_end_true in E as [E1 E2].
  unfold stage in S. rewrite F in S. destruct S as (-> & -> & S).
  constructor; cbn [hang_up set_srv what cli up up_end sbuf srv down down_end cbuf]; try assumption.
  { auto. }
  { intros X. split; auto. }
  exists [], v, tail. split; [right; auto 7|]. split; [exact U|]. split; [exact T|].
  destruct (cli G c) as [| |[]] eqn:C; auto.
Qed.

Lemma Good_op i c h b rest op : Good i c h -> srv G c = Asked -> sbuf G c = b :: rest -> command_of_bytes [b] = Some op ->
  op = command_of (what G c) /\ Good i (set_srv G (set_sbuf G c rest) (InLine op)) h.
Proof.
  intros [A1 A2 A3 A4 A4' A5 (eaten & produced & tail & S & U & T & D)] F E K.
  unfold stage in S. rewrite F in S. destruct S as (-> & -> & S). rewrite E in *. cbn [app] in *.
  assert (O : b = command_byte (command_of (what G c))).
  { destruct (request_head (what G c)) as [x X]. rewrite X in U. now injection U. }
  subst b. rewrite command_of_byte in K. injection K as <-. split; [reflexivity|].
  constructor; cbn [set_srv set_sbuf what cli up up_end sbuf srv down down_end cbuf]; try assumption.
  { intros X. destruct (A4 X) as [Y|Y]; [left; exact Y|congruence]. }
  exists [command_byte (command_of (what G c))], v, tail. split; [split; [reflexivity|split; [reflexivity|exact S]]|].
  split; [exact U|]. split; [exact T|]. destruct (cli G c) as [| |[]] eqn:C; auto.
Qed.

Lemma Good_break i c h op : Good i c h -> srv G c = InLine op -> (forall x rest, run (read_args op) (sbuf G c) <> Done x rest) ->
  server_at_end G c = true -> Good i (set_srv G c Broken) h.
Proof.
  intros [A1 A2 A3 A4 A4' A5 (eaten & produced & tail & S & U & T & D)] F R E. apply server_at_end_true in E as [E1 E2].
  unfold stage in S. rewrite F in S. destruct S as (-> & -> & S).
  constructor; cbn [set_srv what cli up up_end sbuf srv down down_end cbuf]; try assumption.
  { intros X. destruct (A4 X) as [Y|Y]; [left; exact Y|congruence]. }
  exists [command_byte op], v, tail. split; [|split; [exact U|split; [exact T|]]].
  - split; [exact S|]. left. split; [reflexivity|]. split; [eauto|]. split; [exact E1|]. split; [exact E2|].
    intros x rest op' X. injection X as X. apply command_byte_inj in X as <-. apply R.
  - destruct (cli G c) as [| |[]] eqn:C; auto.
Qed.

(** Its whole request has been read. *)
Record Prep (i : nat) (c : conn) (h : list mark) : Prop := {
  p_called : forall x, In (Called i x) h <-> x = what G c;
  p_back : forall r, In (CameBack i r) h <-> cli G c = Over G r;
  p_up_end : up_end G c = true -> lost i h \/ is_over c;
  p_down_end : down_end G c = true -> lost i h;
  p_lost : lost i h -> up_end G c = true /\ down_end G c = true;
  p_dropped : In (Dropped i) h -> up_end G c = true;
  p_read : sbuf G c = [] /\ up G c = [];
  p_ok : snd (write_request (what G c)) = true;
  p_untaken : untaken i h;
  p_cli : match cli G c with
          | Opening _ => False
          | Waiting _ => came_down i c h v v /\ match what G c with Pause | Resume => False | _ => True end
          | Over _ _ => True
          end }.

Lemma Prep_inline i c h op q rest : Good i c h -> srv G c = InLine op -> run (read_args op) (sbuf G c) = Done q rest ->
  q = what G c /\ Prep i (set_sbuf G c rest) h.
Proof.
  intros [A1 A2 A3 A4 A4' A5 (eaten & produced & tail & S & U & T & D)] F R.
  unfold stage in S. rewrite F in S. destruct S as (-> & -> & S). cbn [app] in U.
  destruct (args_prefix _ _ _ _ _ _ (eq_sym U) R) as (K & -> & -> & E). apply app_eq_nil in E as [E ->].
  split; [reflexivity|].
  constructor; cbn [set_sbuf what cli up up_end sbuf srv down down_end cbuf]; try assumption; auto.
  - intros X. destruct (A4 X) as [Y|Y]; [exact Y|congruence].
  - destruct (cli G c) as [| |[]] eqn:C; auto.
    + destruct D as [D _]. discriminate.
    + tauto.
Qed.

Lemma Prep_syncing i c h todo : Good i c h -> srv G c = Syncing todo -> what G c = Sync /\ todo <> [] /\ Prep i c h.
Proof.
  intros [A1 A2 A3 A4 A4' A5 (eaten & produced & tail & S & U & T & D)] F.
  unfold stage in S. rewrite F in S. destruct S as (-> & -> & S & W & N).
  apply app_self in U. apply app_eq_nil in U as [E1 E2]. apply app_eq_nil in E2 as [E2 ->].
  split; [exact W|]. split; [exact N|].
  constructor; try assumption; auto.
  - intros X. destruct (A4 X) as [Y|Y]; [exact Y|congruence].
  - rewrite W. reflexivity.
  - destruct (cli G c) as [| |[]] eqn:C; auto.
    + destruct D as [D _]. destruct (request_head (what G c)) as [x X]. rewrite X in D. discriminate.
    + tauto.
Qed.

(** Marks about the command itself, apart from its effect. *)
Definition working (i : nat) (m : mark) : Prop := (exists p op, m = Told i p op) \/ exists p, m = Confirmed i p.

Lemma Prep_more i c h l : Prep i c h -> (forall m, In m l -> working i m) -> Prep i c (h ++ l).
Proof.
  intros [A1 A2 A3 A4 A4' A5 A6 A7 A8 A9] N.
  assert (X : forall P, (forall p op, P <> Told i p op) -> (forall p, P <> Confirmed i p) -> In P (h ++ l) <-> In P h).
  { intros P P1 P2. rewrite in_app_iff. split; [|tauto]. intros [Y|Y]; [exact Y|]. exfalso.
    destruct (N _ Y) as [(p & op & ->)|(p & ->)]; [exact (P1 p op eq_refl)|exact (P2 p eq_refl)]. }
  assert (L : lost i (h ++ l) <-> lost i h) by (apply X; discriminate).
  constructor; try assumption.
  - intros x. rewrite X by discriminate. apply A1.
  - intros r. rewrite X by discriminate. apply A2.
  - rewrite L. exact A3.
  - rewrite L. exact A4.
  - rewrite L. exact A4'.
  - rewrite X by discriminate. exact A5.
  - intros x a Y. apply X in Y; [|discriminate|discriminate]. exact (A8 x a Y).
  - destruct (cli G c); auto. destruct A9 as [(t & E & Z) W]. split; [|exact W]. exists t. rewrite L. auto.
Qed.

Lemma Good_sync i c h todo : Prep i c h -> what G c = Sync -> todo <> [] -> Good i (set_srv G c (Syncing todo)) h.
Proof.
  intros [A1 A2 A3 A4 A4' A5 [A6 A6'] A7 A8 A9] W N.
  constructor; cbn [set_srv what cli up up_end sbuf srv down down_end cbuf]; try assumption.
  { intros X. left. auto. }
  exists (fst (write_request (what G c))), v, []. rewrite A6, A6'. cbn [app]. rewrite app_nil_r.
  split; [repeat split; auto|]. split; [reflexivity|]. split; [auto|].
  destruct (cli G c) as [| |[]] eqn:C; auto.
  destruct A9.
Qed.

Lemma Good_take i c h a b : Prep i c h -> fits (what G c) a -> write_answer a = Some b ->
  Good i (set_srv G (write_down G c b) Answered) (h ++ [Took i (what G c) a]).
Proof.
  intros [A1 A2 A3 A4 A4' A5 [A6 A6'] A7 A8 A9] Fi B.
  assert (L : lost i (h ++ [Took i (what G c) a]) <-> lost i h) by (apply in_snoc_other; discriminate).
  constructor; cbn [set_srv write_down what cli up up_end sbuf srv down down_end cbuf].
  - intros x. rewrite in_snoc_other by discriminate. apply A1.
  - intros r. rewrite in_snoc_other by discriminate. apply A2.
  - rewrite L. exact A3.
  - rewrite L. auto.
  - rewrite L. exact A4'.
  - rewrite in_snoc_other by discriminate. exact A5.
  - exists (fst (write_request (what G c))), (v ++ b), []. rewrite A6, A6', L. cbn [app]. rewrite app_nil_r. split; [|split; [reflexivity|split; [auto|]]].
    + split; [reflexivity|]. exists a, b. split; [apply in_app_iff; right; left; reflexivity|auto].
    + destruct (cli G c) as [| |[]] eqn:C; auto.
      * destruct A9.
      * destruct A9 as [(t & E & Z) W]. split; [auto|]. split; [exact A7|]. split; [|exact W].
        apply app_self in E.
        apply app_eq_nil in E as [E1 E]. apply app_eq_nil in E as [E2 ->].
        unfold came_down. cbn [set_srv write_down cbuf down]. rewrite E1, E2. cbn [app]. destruct (down_end G c) eqn:De.
        -- exists b. cbn [app]. split; [reflexivity|]. left. apply L, A4. reflexivity.
        -- exists []. rewrite app_nil_r. split; [reflexivity|right; reflexivity].
Qed.

Lemma Good_overflow i c h g : Prep i c h -> what G c = Dag -> too_big g ->
  Good i (set_srv G (write_down G c [command_byte DAG]) Broken) (h ++ [NotSent i g]).
Proof.
  intros [A1 A2 A3 A4 A4' A5 [A6 A6'] A7 A8 A9] W B.
  assert (Nw : forall P, P <> NotSent i g -> In P (h ++ [NotSent i g]) <-> In P h) by (intros P NP; apply in_snoc_other, NP).
  assert (L : lost i (h ++ [NotSent i g]) <-> lost i h) by (apply Nw; discriminate).
  assert (A8' : untaken i (h ++ [NotSent i g])) by (intros x a X; apply Nw in X; [exact (A8 x a X)|discriminate]).
  assert (B' : exists g', In (NotSent i g') (h ++ [NotSent i g]) /\ too_big g')
    by (exists g; split; [apply in_app_iff; right; left; reflexivity|exact B]).
  assert (A1' : forall x, In (Called i x) (h ++ [NotSent i g]) <-> x = what G c) by (intros x; rewrite Nw by discriminate; apply A1).
  assert (A2' : forall r, In (CameBack i r) (h ++ [NotSent i g]) <-> cli G c = Over G r) by (intros r; rewrite Nw by discriminate; apply A2).
  assert (A5' : In (Dropped i) (h ++ [NotSent i g]) -> up_end G c = true) by (rewrite Nw by discriminate; exact A5).
  constructor; cbn [set_srv write_down what cli up up_end sbuf srv down down_end cbuf]; try assumption; try (rewrite L; assumption).
  { intros X. left. apply L, A4, X. }
  exists (fst (write_request (what G c))), (v ++ [command_byte DAG]), []. rewrite A6, A6'. cbn [app]. rewrite app_nil_r.
  split; [|split; [reflexivity|split; [auto|]]].
  - split; [exact A8'|]. right. auto.
  - destruct (cli G c) as [| |[]] eqn:C; auto.
    + destruct A9.
    + destruct A9 as [(t & E & Z) W']. split; [auto|]. split; [exact A7|]. split; [|exact W'].
      apply app_self in E.
      apply app_eq_nil in E as [E1 E]. apply app_eq_nil in E as [E2 ->].
      unfold came_down. cbn [set_srv write_down cbuf down]. rewrite E1, E2. cbn [app]. destruct (down_end G c) eqn:De.
      * exists [command_byte DAG]. cbn [app]. split; [reflexivity|]. left. apply L, A4. reflexivity.
      * exists []. split; [reflexivity|right; reflexivity].
Qed.

Lemma Good_finish i c h : Good i c h -> srv G c = Answered -> Good i (hang_up G (set_srv G c Closed)) h.
Proof.
  intros [A1 A2 A3 A4 A4' A5 (eaten & produced & tail & S & U & T & D)] F.
  unfold stage in S. rewrite F in S.
  constructor; cbn [hang_up set_srv what cli up up_end sbuf srv down down_end cbuf]; try assumption.
  { auto. }
  { intros X. split; [|reflexivity]. now apply A4'. }
  exists eaten, produced, tail. split; [left; exact S|]. auto.
Qed.

(** ** What the caller reads *)
Lemma opening_down i c h : Good i c h -> cli G c = Opening G -> exists t produced,
  cbuf G c ++ down G c ++ t = produced /\ (lost i h \/ t = []) /\
  ((produced = [] /\ srv G c = Fresh) \/ exists y, produced = v ++ y).
Proof.
  intros [A1 A2 A3 A4 A4' A5 (eaten & produced & tail & S & U & T & D)] O. rewrite O in D. destruct D as [_ (t & D1 & D2)].
  exists t, produced. split; [exact D1|]. split; [exact D2|].
  unfold stage in S. destruct (srv G c) as [| |op|todo| | |].
  - left. tauto.
  - right. destruct S as (_ & -> & _). exists []. now rewrite app_nil_r.
  - right. destruct S as (_ & -> & _). exists []. now rewrite app_nil_r.
  - right. destruct S as (_ & -> & _). exists []. now rewrite app_nil_r.
  - right. destruct S as [_ (a & b & _ & _ & _ & ->)]. eauto.
  - right. destruct S as [[_ (a & b & _ & _ & _ & ->)]|(_ & _ & _ & _ & -> & _)]; eauto. exists []. now rewrite app_nil_r.
  - right. destruct S as [_ [(-> & _)|(_ & _ & -> & _)]]; eauto. exists []. now rewrite app_nil_r.
Qed.

Lemma opening_done i c h s rest : Good i c h -> cli G c = Opening G -> run read_str (cbuf G c) = Done s rest -> s = version.
Proof.
  intros Hg O R. destruct (opening_down i c h Hg O) as (t & p & E & _ & [[-> _]|[y ->]]).
  - apply app_eq_nil in E as [E _]. rewrite E in R. discriminate.
  - pose proof (run_app read_str (cbuf G c) (down G c ++ t)) as A. rewrite R, E, (run_read_str _ _ _ greeting) in A.
    now injection A as <-.
Qed.

Lemma opening_not_failed i c h : Good i c h -> cli G c = Opening G -> run read_str (cbuf G c) <> Failed.
Proof.
  intros Hg O R. destruct (opening_down i c h Hg O) as (t & p & E & _ & [[-> _]|[y ->]]).
  - apply app_eq_nil in E as [E _]. rewrite E in R. discriminate.
  - pose proof (run_app read_str (cbuf G c) (down G c ++ t)) as A. rewrite R, E, (run_read_str _ _ _ greeting) in A. discriminate.
Qed.

Lemma opening_end i c h r rest : Good i c h -> cli G c = Opening G -> run read_str (cbuf G c) = Blocked r rest ->
  client_at_end G c = true -> lost i h.
Proof.
  intros Hg O R E. apply client_at_end_true in E as [E1 E2].
  destruct (opening_down i c h Hg O) as (t & p & E & [L| ->] & P); [exact L|].
  destruct (g_down_end i c h Hg E1) as [L|Cl]; [exact L|]. destruct P as [[_ F]|[y ->]]; [congruence|].
  rewrite E2, !app_nil_r in E. rewrite E, (run_read_str _ _ _ greeting) in R. discriminate.
Qed.

Lemma waiting_down i c h : Good i c h -> cli G c = Waiting G -> exists t y,
  cbuf G c ++ down G c ++ t = y /\ (lost i h \/ t = []) /\
  ((exists a, In (Took i (what G c) a) h /\ write_answer a = Some y /\ fits (what G c) a) \/
   (y = [] /\ (srv G c <> Closed \/ lost i h)) \/
   (what G c = Dag /\ y = [command_byte DAG] /\ srv G c = Broken)).
Proof.
  intros [A1 A2 A3 A4 A4' A5 (eaten & produced & tail & S & U & T & D)] O. rewrite O in D. destruct D as (_ & _ & (t & D1 & D2) & _).
  exists t, (cbuf G c ++ down G c ++ t). split; [reflexivity|]. split; [exact D2|].
  unfold stage in S. destruct (srv G c) as [| |op|todo| | |].
  - exfalso. destruct S as (_ & -> & _). apply app_eq_nil in D1 as [D1 _]. exact (v_long D1).
  - right. left. destruct S as (_ & -> & _). split; [exact (app_self _ _ D1)|left; discriminate].
  - right. left. destruct S as (_ & -> & _). split; [exact (app_self _ _ D1)|left; discriminate].
  - right. left. destruct S as (_ & -> & _). split; [exact (app_self _ _ D1)|left; discriminate].
  - left. destruct S as [_ (a & b & I1 & I2 & I3 & ->)]. apply app_inv_head in D1. exists a. rewrite D1. auto.
  - destruct S as [[_ (a & b & I1 & I2 & I3 & ->)]|(_ & _ & _ & E & -> & _)].
    + left. apply app_inv_head in D1. exists a. rewrite D1. auto.
    + right. left. split; [exact (app_self _ _ D1)|right]. destruct (A3 E) as [L|[r R]]; [exact L|congruence].
  - destruct S as [_ [(-> & _)|(W & _ & -> & _)]].
    + right. left. split; [exact (app_self _ _ D1)|left; discriminate].
    + right. right. apply app_inv_head in D1. auto.
Qed.

Lemma waiting_end i c h : Good i c h -> cli G c = Waiting G -> what G c <> Dag -> cbuf G c = [] -> client_at_end G c = true -> lost i h.
Proof.
  intros Hg O W E0 E. apply client_at_end_true in E as [E1 E2].
  assert (NP : match what G c with Pause | Resume => False | _ => True end).
  { destruct Hg as [_ _ _ _ _ _ (e & p & t & _ & _ & _ & D)]. rewrite O in D. tauto. }
  destruct (waiting_down i c h Hg O) as (t & y & E & [L| ->] & P); [exact L|]. rewrite E0, E2 in E. cbn in E. subst y.
  destruct (g_down_end i c h Hg E1) as [L|Cl]; [exact L|].
  destruct P as [(a & _ & B & F)|[(_ & [N|L])|(D & _)]]; [|congruence|exact L|congruence].
  exfalso. destruct (what G c), a; cbn in F, B; try discriminate; tauto.
Qed.

Lemma waiting_byte i c h b rest : Good i c h -> cli G c = Waiting G -> what G c <> Dag -> cbuf G c = b :: rest ->
  (b = command_byte COMPLETE /\ In (Took i (what G c) (ADone G)) h) \/
  (b = command_byte CYCLIC /\ In (Took i (what G c) (ACyclic G)) h /\ exists f t, what G c = Connect f t).
Proof.
  intros Hg O W E0.
  destruct (waiting_down i c h Hg O) as (t & y & E & _ & P). rewrite E0 in E. cbn [app] in E. subst y.
  destruct P as [(a & I & B & F)|[(Z & _)|(D & _)]]; [|discriminate|congruence].
  destruct (what G c) eqn:Wc, a; cbn in F, B; try tauto; try discriminate; try congruence; injection B as <- B; eauto 6.
Qed.

Lemma waiting_dag i c h p rest : Good i c h -> cli G c = Waiting G -> what G c = Dag -> run read_dag (cbuf G c) = Done p rest ->
  exists g, p = dumps g /\ In (Took i Dag (ADag G g)) h.
Proof.
  intros Hg O W R. destruct (waiting_down i c h Hg O) as (t & y & E & _ & P).
  pose proof (run_app read_dag (cbuf G c) (down G c ++ t)) as A. rewrite R, E in A.
  destruct P as [(a & I & B & F)|[(Z & _)|(_ & Z & _)]].
  - rewrite W in *. destruct a as [| |g|]; cbn in F; try tauto. exists g. split; [|exact I].
    rewrite <- (app_nil_r y), (dag_answer g y B) in A. now injection A as <-.
  - rewrite Z in A. discriminate.
  - rewrite Z in A. discriminate.
Qed.

Lemma waiting_dag_end i c h r rest : Good i c h -> cli G c = Waiting G -> what G c = Dag -> run read_dag (cbuf G c) = Blocked r rest ->
  client_at_end G c = true -> lost i h.
Proof.
  intros Hg O W R E. apply client_at_end_true in E as [E1 E2].
  destruct (waiting_down i c h Hg O) as (t & y & E & [L| ->] & P); [exact L|]. rewrite E2, !app_nil_r in E. subst y.
  destruct (g_down_end i c h Hg E1) as [L|Cl]; [exact L|].
  destruct P as [(a & _ & B & F)|[(_ & [N|L])|(_ & _ & D)]]; [|congruence|exact L|congruence].
  exfalso. rewrite W in F. destruct a as [| |g|]; cbn in F; try tauto.
  rewrite <- (app_nil_r (cbuf G c)), (dag_answer g _ B) in R. discriminate.
Qed.

(** ** The whole server *)
Definition holds (t : task) : Prop := match t with InLine _ | Syncing _ | Answered => True | _ => False end.

Definition under_way (w : world) (o : list mark) : Prop :=
  match line G w with
  | [] => o = []
  | i :: _ =>
      match srv G (conns G w i) with
      | Syncing todo => exists past p rest, todo = p :: rest /\ pubs G w = past ++ todo /\
          o = flat_map (fun p => [Told i p SYNC; Confirmed i p]) past ++ [Told i p SYNC]
      | _ => o = []
      end
  end.

Record Inv (g0 : G) (l0 : list nat) (w : world) : Prop := {
  i_good : forall i, i < count G w -> Good i (conns G w i) (history G w);
  i_marks : forall m i, In m (history G w) -> owner m = Some i -> i < count G w;
  i_nodup : NoDup (line G w);
  i_line : forall i, In i (line G w) <-> i < count G w /\ holds (srv G (conns G w i));
  i_tail : forall i r, line G w = i :: r -> forall j, In j r -> exists op, srv G (conns G w j) = InLine op;
  i_explains : exists o, explains g0 l0 (history G w) (graph G w) (pubs G w) o /\ under_way w o;
  i_order : in_order (history G w) }.

Lemma in_order_snoc h m : in_order h -> justified h m -> in_order (h ++ [m]).
Proof.
  intros A B h1 m' h2 E. destruct h2 as [|x h2] using rev_ind.
  - apply app_inj_tail in E as [-> ->]. exact B.
  - clear IHh2. rewrite app_comm_cons, app_assoc in E. apply app_inj_tail in E as [E _]. exact (A _ _ _ E).
Qed.

Lemma upd_same f i (c : conn) : upd G f i c i = c.
Proof. unfold upd. now rewrite Nat.eqb_refl. Qed.
Lemma upd_other f i (c : conn) j : j <> i -> upd G f i c j = f j.
Proof. intros N. unfold upd. apply Nat.eqb_neq in N. now rewrite N. Qed.

(** Something happens on connection [i], as long as the server does nothing. *)
Lemma Inv_conn g0 l0 w i c' l : Inv g0 l0 w -> i < count G w -> srv G c' = srv G (conns G w i) ->
  Forall (fun m => owner m = Some i /\ about_callers G m = true) l ->
  Good i c' (history G w ++ l) -> in_order (history G w ++ l) ->
  Inv g0 l0 (note G (set_conn G w i c') l).
Proof.
  intros [I1 I2 I3 I4 I5 (o & I6 & I6') I7] L Es F Hg Ho.
  assert (Sv : forall j, srv G (upd G (conns G w) i c' j) = srv G (conns G w j)).
  { intros j. destruct (Nat.eq_dec j i) as [->|N]; [now rewrite upd_same|now rewrite upd_other]. }
  constructor; cbn [note set_conn graph pubs line count conns history].
  - intros j J. destruct (Nat.eq_dec j i) as [->|N]; [rewrite upd_same; exact Hg|].
    rewrite upd_other by exact N. apply Good_frame; [apply I1, J|].
    intros m M. rewrite Forall_forall in F. apply F in M as [M _]. congruence.
  - intros m j M O. apply in_app_iff in M as [M|M]; [exact (I2 m j M O)|].
    rewrite Forall_forall in F. apply F in M as [M _]. congruence.
  - exact I3.
  - intros j. rewrite Sv. apply I4.
  - intros j r E k K. rewrite Sv. exact (I5 j r E k K).
  - exists o. split.
    + clear -I6 F. revert F. induction l as [|m l IH] using rev_ind; intros F; [now rewrite app_nil_r|].
      apply Forall_app in F as [F1 F2]. rewrite app_assoc. apply Forall_inv in F2 as [_ F2].
      apply e_caller; [apply IH, F1|exact F2].
    + unfold under_way in *. cbn [note set_conn line conns pubs]. destruct (line G w) as [|j r]; [exact I6'|]. rewrite Sv. exact I6'.
  - exact Ho.
Qed.

Lemma Inv_srv g0 l0 w i c' l g' line' o : Inv g0 l0 w -> i < count G w -> Good i c' (history G w ++ l) ->
  Forall (fun m => owner m = Some i) l -> in_order (history G w ++ l) ->
  NoDup line' ->
  (forall j, In j line' <-> j < count G w /\ holds (srv G (upd G (conns G w) i c' j))) ->
  (forall j r, line' = j :: r -> forall k, In k r -> exists op, srv G (upd G (conns G w) i c' k) = InLine op) ->
  explains g0 l0 (history G w ++ l) g' (pubs G w) o ->
  under_way (World G g' (pubs G w) line' (count G w) (upd G (conns G w) i c') (history G w ++ l)) o ->
  Inv g0 l0 (World G g' (pubs G w) line' (count G w) (upd G (conns G w) i c') (history G w ++ l)).
Proof.
  intros [I1 I2 I3 I4 I5 _ _] L Hg F Ho N1 N2 N3 E U.
  constructor; cbn [graph pubs line count conns history]; auto.
  - intros j J. destruct (Nat.eq_dec j i) as [->|N]; [rewrite upd_same; exact Hg|].
    rewrite upd_other by exact N. apply Good_frame; [apply I1, J|].
    intros m M. rewrite Forall_forall in F. apply F in M. congruence.
  - intros m j M O. apply in_app_iff in M as [M|M]; [exact (I2 m j M O)|].
    rewrite Forall_forall in F. apply F in M. congruence.
  - exists o. auto.
Qed.

(** The holder goes on holding the lock. *)
Lemma Inv_hold g0 l0 w i c' l g' r o : Inv g0 l0 w -> line G w = i :: r -> holds (srv G c') -> Good i c' (history G w ++ l) ->
  Forall (fun m => owner m = Some i) l -> in_order (history G w ++ l) ->
  explains g0 l0 (history G w ++ l) g' (pubs G w) o ->
  under_way (World G g' (pubs G w) (line G w) (count G w) (upd G (conns G w) i c') (history G w ++ l)) o ->
  Inv g0 l0 (World G g' (pubs G w) (line G w) (count G w) (upd G (conns G w) i c') (history G w ++ l)).
Proof.
  intros I Ln Hh Hg F Ho E U. pose proof I as [I1 I2 I3 I4 I5 _ _].
  assert (Hi : i < count G w /\ holds (srv G (conns G w i))) by (apply I4; rewrite Ln; left; reflexivity).
  apply Inv_srv with (o := o); auto; [apply Hi| |].
  - intros j. rewrite I4. destruct (Nat.eq_dec j i) as [->|N]; [rewrite upd_same; tauto|now rewrite upd_other].
  - intros j q Q k K. rewrite Ln in Q. injection Q as <- <-. rewrite upd_other.
    + exact (I5 i r Ln k K).
    + intros ->. rewrite Ln in I3. inversion I3. contradiction.
Qed.

(** The holder gives the lock back. *)
Lemma Inv_release_with g0 l0 w i c' r l : Inv g0 l0 w -> line G w = i :: r -> ~ holds (srv G c') -> Good i c' (history G w ++ l) ->
  (forall todo, srv G (conns G w i) <> Syncing todo) -> Forall (fun m => owner m = Some i) l -> in_order (history G w ++ l) ->
  (explains g0 l0 (history G w) (graph G w) (pubs G w) [] -> explains g0 l0 (history G w ++ l) (graph G w) (pubs G w) []) ->
  Inv g0 l0 (World G (graph G w) (pubs G w) r (count G w) (upd G (conns G w) i c') (history G w ++ l)).
Proof.
  intros I Ln Hh Hg NS Fo Io Ex. pose proof I as [I1 I2 I3 I4 I5 (o & I6 & I6') I7].
  assert (Hi : i < count G w /\ holds (srv G (conns G w i))) by (apply I4; rewrite Ln; left; reflexivity).
  rewrite Ln in I3. inversion I3 as [|? ? N1 N2]; subst.
  assert (o = []) as ->.
  { unfold under_way in I6'. rewrite Ln in I6'. destruct (srv G (conns G w i)); auto. exfalso. exact (NS _ eq_refl). }
  apply Inv_srv with (o := []); auto.
  - apply Hi.
  - intros j. destruct (Nat.eq_dec j i) as [->|N].
    + rewrite upd_same. tauto.
    + rewrite upd_other by exact N. rewrite <- I4, Ln. cbn. split; [auto|]. intros [X|X]; [congruence|exact X].
  - intros j q Q k K. rewrite upd_other.
    + apply (I5 i r Ln k). rewrite Q. right. exact K.
    + intros ->. apply N1. rewrite Q. right. exact K.
  - unfold under_way. cbn [line conns]. destruct r as [|j q]; [reflexivity|].
    destruct (I5 i _ Ln j (or_introl eq_refl)) as [op O]. rewrite upd_other, O; [reflexivity|].
    intros ->. apply N1. left. reflexivity.
Qed.

Lemma Inv_release g0 l0 w i c' r : Inv g0 l0 w -> line G w = i :: r -> ~ holds (srv G c') -> Good i c' (history G w) ->
  (forall todo, srv G (conns G w i) <> Syncing todo) ->
  Inv g0 l0 (World G (graph G w) (pubs G w) r (count G w) (upd G (conns G w) i c') (history G w)).
Proof.
  intros I Ln Hh Hg NS. rewrite <- (app_nil_r (history G w)).
  apply Inv_release_with; auto; rewrite ?app_nil_r; auto. apply (i_order _ _ _ I).
Qed.

(** A task outside the line stays outside. *)
Lemma Inv_outside g0 l0 w i c' : Inv g0 l0 w -> i < count G w -> ~ holds (srv G (conns G w i)) -> ~ holds (srv G c') ->
  Good i c' (history G w) ->
  Inv g0 l0 (set_conn G w i c').
Proof.
  intros I L H1 H2 Hg. pose proof I as [I1 I2 I3 I4 I5 (o & I6 & I6') I7]. unfold set_conn.
  assert (Ni : ~ In i (line G w)) by (rewrite I4; tauto).
  rewrite <- (app_nil_r (history G w)).
  apply Inv_srv with (o := o); auto; try (rewrite app_nil_r; assumption).
  - intros j. rewrite I4. destruct (Nat.eq_dec j i) as [->|N]; [rewrite upd_same; tauto|now rewrite upd_other].
  - intros j q Q k K. rewrite upd_other; [exact (I5 j q Q k K)|]. intros ->. apply Ni. rewrite Q. right. exact K.
  - unfold under_way in *. cbn [line conns pubs]. destruct (line G w) as [|j q]; [exact I6'|].
    rewrite upd_other; [exact I6'|]. intros ->. apply Ni. left. reflexivity.
Qed.

(** A task joins the line. *)
Lemma Inv_join g0 l0 w i c' op : Inv g0 l0 w -> i < count G w -> ~ holds (srv G (conns G w i)) -> srv G c' = InLine op ->
  Good i c' (history G w) ->
  Inv g0 l0 (set_line G (set_conn G w i c') (line G w ++ [i])).
Proof.
  intros I L H1 H2 Hg. pose proof I as [I1 I2 I3 I4 I5 (o & I6 & I6') I7]. unfold set_conn, set_line. cbn [graph pubs count conns history].
  assert (Ni : ~ In i (line G w)) by (rewrite I4; tauto).
  rewrite <- (app_nil_r (history G w)).
  apply Inv_srv with (o := o); auto; try (rewrite app_nil_r; assumption).
  - apply (Permutation_NoDup (l := i :: line G w)); [apply Permutation_cons_append|constructor; auto].
  - intros j. rewrite in_app_iff, I4. destruct (Nat.eq_dec j i) as [->|N].
    + rewrite upd_same, H2. cbn. tauto.
    + rewrite upd_other by exact N. cbn. intuition congruence.
  - intros j q Q k K. destruct (Nat.eq_dec k i) as [->|N]; [rewrite upd_same; eauto|]. rewrite upd_other by exact N.
    destruct (line G w) as [|j0 q0] eqn:Ln.
    + cbn in Q. injection Q as _ <-. destruct K.
    + cbn in Q. injection Q as <- <-. apply in_app_iff in K as [K|[K|[]]]; [|congruence]. exact (I5 j0 q0 eq_refl k K).
  - unfold under_way in *. cbn [line conns pubs]. destruct (line G w) as [|j q]; cbn [app].
    + rewrite upd_same, H2. exact I6'.
    + rewrite upd_other; [exact I6'|]. intros ->. apply Ni. left. reflexivity.
Qed.


Lemma Inv_ext g0 l0 w w' : Inv g0 l0 w -> graph G w' = graph G w -> pubs G w' = pubs G w -> line G w' = line G w ->
  count G w' = count G w -> history G w' = history G w -> (forall j, conns G w' j = conns G w j) -> Inv g0 l0 w'.
Proof.
  intros [I1 I2 I3 I4 I5 (o & I6 & I6') I7] E1 E2 E3 E4 E5 E6. constructor.
  - intros i. rewrite E4, E5, E6. apply I1.
  - intros m i. rewrite E4, E5. apply I2.
  - rewrite E3. exact I3.
  - intros i. rewrite E3, E4, E6. apply I4.
  - intros i r. rewrite E3. intros L j J. rewrite E6. exact (I5 i r L j J).
  - exists o. rewrite E5, E1, E2. split; [exact I6|]. unfold under_way in *. rewrite E2, E3.
    destruct (line G w) as [|j q]; [exact I6'|]. rewrite E6. exact I6'.
  - rewrite E5. exact I7.
Qed.

Lemma in_order_working i h l : in_order h -> (forall m, In m l -> working i m) -> in_order (h ++ l).
Proof.
  intros A. induction l as [|m l IH] using rev_ind; intros N; [now rewrite app_nil_r|].
  rewrite app_assoc. apply in_order_snoc.
  - apply IH. intros x X. apply N, in_app_iff. left. exact X.
  - destruct (N m) as [(p & op & ->)|(p & ->)]; [apply in_app_iff; right; left; reflexivity| |]; exact I.
Qed.

Lemma explains_working g0 l0 i h g l o : forall t, explains g0 l0 h g l o -> (forall m, In m t -> working i m) ->
  explains g0 l0 (h ++ t) g l (o ++ t).
Proof.
  induction t as [|m t IH] using rev_ind; intros A N; [now rewrite !app_nil_r|].
  rewrite !app_assoc. apply e_publisher.
  - apply IH; [exact A|]. intros x X. apply N, in_app_iff. left. exact X.
  - destruct (N m) as [(p & op & ->)|(p & ->)]; [apply in_app_iff; right; left; reflexivity| |]; reflexivity.
Qed.

Lemma tells_working q i l m : In m (tells G q i l) -> working i m.
Proof.
  destruct q; cbn; try tauto; intros M; apply in_map_iff in M as (p & <- & _); left; eauto.
Qed.

Lemma working_owner i l : (forall m, In m l -> working i m) -> Forall (fun m => owner m = Some i) l.
Proof. intros N. apply Forall_forall. intros m M. destruct (N m M) as [(p & op & ->)|(p & ->)]; reflexivity. Qed.

Notation take := (take G connect_g disconnect_g dumps).
Notation sync_next := (sync_next G connect_g disconnect_g dumps).

Lemma take_ok g0 l0 w i r c1 l q o w1 : Inv g0 l0 w -> line G w = i :: r -> what G c1 = q -> Prep i c1 (history G w) ->
  (forall m, In m l -> working i m) -> (q <> Sync -> l = []) ->
  (q <> Sync -> forall todo, srv G (conns G w i) <> Syncing todo) ->
  explains g0 l0 (history G w ++ l) (graph G w) (pubs G w) o -> o ++ tells G q i (pubs G w) = duties i q (pubs G w) ->
  graph G w1 = graph G w -> pubs G w1 = pubs G w -> line G w1 = line G w -> count G w1 = count G w ->
  history G w1 = history G w ++ l -> conns G w1 i = c1 -> (forall j, j <> i -> conns G w1 j = conns G w j) ->
  Inv g0 l0 (take i q w1).
Proof.
  intros I Ln Wc P Wk Lq Nq E D E1 E2 E3 E4 E5 E6 E7. unfold ApiModel.take. rewrite E1.
  pose proof (apply_fits q (graph G w)) as Fi. pose proof (apply_performs q (graph G w)) as Pe.
  pose proof (answer_none q (graph G w)) as An.
  destruct (apply q (graph G w)) as [g a]. cbn [fst snd] in *.
  destruct (write_answer a) as [b|] eqn:B.
  - set (t := tells G q i (pubs G w)).
    assert (Wk' : forall m, In m (l ++ t) -> working i m).
    { intros m M. apply in_app_iff in M as [M|M]; [exact (Wk m M)|exact (tells_working _ _ _ _ M)]. }
    pose proof (Prep_more i c1 (history G w) (l ++ t) P Wk') as P'. rewrite <- Wc in Fi.
    pose proof (Good_take i c1 _ a b P' Fi B) as Hg. rewrite Wc, <- app_assoc in Hg.
    apply Inv_ext with (w := World G g (pubs G w) (line G w) (count G w)
      (upd G (conns G w) i (set_srv G (write_down G c1 b) Answered)) (history G w ++ (l ++ t) ++ [Took i q a]));
      cbn [note set_conn set_graph graph pubs line count conns history]; auto.
    + apply Inv_hold with (r := r) (o := []); auto; [cbn; exact Logic.I| | | |].
      * apply Forall_app. split; [apply working_owner, Wk'|]. constructor; [reflexivity|constructor].
      * rewrite app_assoc. apply in_order_snoc; [apply in_order_working with (i := i); [apply (i_order _ _ _ I)|exact Wk']|].
        cbn. rewrite <- Wc. split; [|exact (p_untaken _ _ _ P')]. apply (p_called _ _ _ P'). reflexivity.
      * rewrite app_assoc. apply e_took with (g1 := graph G w); [|exact Pe]. rewrite <- D, app_assoc.
        apply explains_working with (i := i); [exact E|]. intros m M. apply (tells_working _ _ _ _ M).
      * unfold under_way. cbn [line conns]. rewrite Ln, upd_same. reflexivity.
    + rewrite E5, E2, <- !app_assoc. reflexivity.
    + intros j. rewrite E6. destruct (Nat.eq_dec j i) as [->|N]; [now rewrite !upd_same|]. rewrite !upd_other by exact N. apply E7, N.
  - destruct (An eq_refl) as [-> Big]. rewrite Lq in * by discriminate. rewrite app_nil_r in *.
    pose proof (Good_overflow i c1 _ _ P Wc Big) as Hg.
    apply Inv_ext with (w := World G (graph G w) (pubs G w) r (count G w)
      (upd G (conns G w) i (set_srv G (write_down G c1 [command_byte DAG]) Broken)) (history G w ++ [NotSent i (graph G w)]));
      cbn [note set_line set_conn graph pubs line count conns history]; auto.
    + apply Inv_release_with; auto; [apply Nq; discriminate| |].
      * apply in_order_snoc; [apply (i_order _ _ _ I)|]. split; [|exact (p_untaken _ _ _ P)].
        apply (p_called _ _ _ P). symmetry. exact Wc.
      * intros X. apply e_not_sent; assumption.
    + rewrite E3, Ln. reflexivity.
    + rewrite E5. reflexivity.
    + intros j. rewrite E6. destruct (Nat.eq_dec j i) as [->|N]; [now rewrite !upd_same|]. rewrite !upd_other by exact N. apply E7, N.
Qed.

(** sync() goes on: [past] have answered, [todo] have not been told. *)
Lemma sync_ok g0 l0 w i r c1 l past todo o w1 : Inv g0 l0 w -> line G w = i :: r -> what G c1 = Sync -> Prep i c1 (history G w) ->
  (forall m, In m l -> working i m) ->
  explains g0 l0 (history G w ++ l) (graph G w) (pubs G w) o ->
  pubs G w = past ++ todo -> o = flat_map (fun p => [Told i p SYNC; Confirmed i p]) past ->
  graph G w1 = graph G w -> pubs G w1 = pubs G w -> line G w1 = line G w -> count G w1 = count G w ->
  history G w1 = history G w ++ l -> conns G w1 i = c1 -> (forall j, j <> i -> conns G w1 j = conns G w j) ->
  Inv g0 l0 (sync_next i todo w1).
Proof.
  intros I Ln Wc P Wk E Pb Ho E1 E2 E3 E4 E5 E6 E7. destruct todo as [|p todo]; cbn [ApiModel.sync_next].
  - apply take_ok with (w := w) (r := r) (c1 := c1) (l := l) (o := o); auto; try congruence.
    cbn [tells ApiSpec.duties]. rewrite app_nil_r, Pb, app_nil_r. exact Ho.
  - assert (Wk' : forall m, In m (l ++ [Told i p SYNC]) -> working i m).
    { intros m M. apply in_app_iff in M as [M|[<-|[]]]; [exact (Wk m M)|left; eauto]. }
    pose proof (Prep_more i c1 (history G w) _ P Wk') as P'.
    assert (Nn : p :: todo <> []) by discriminate.
    pose proof (Good_sync i c1 _ (p :: todo) P' Wc Nn) as Hg.
    apply Inv_ext with (w := World G (graph G w) (pubs G w) (line G w) (count G w)
      (upd G (conns G w) i (set_srv G c1 (Syncing (p :: todo)))) (history G w ++ l ++ [Told i p SYNC]));
      cbn [note set_conn graph pubs line count conns history]; auto.
    + apply Inv_hold with (r := r) (o := o ++ [Told i p SYNC]); auto; [cbn; exact Logic.I| | | |].
      * apply working_owner, Wk'.
      * apply in_order_working with (i := i); [apply (i_order _ _ _ I)|exact Wk'].
      * rewrite app_assoc. apply e_publisher; [exact E|reflexivity].
      * unfold under_way. cbn [line conns pubs]. rewrite Ln, upd_same. cbn [set_srv srv].
        exists past, p, todo. rewrite Ho. auto.
    + rewrite E5, <- app_assoc. reflexivity.
    + intros j. rewrite E6. destruct (Nat.eq_dec j i) as [->|N]; [now rewrite !upd_same|]. rewrite !upd_other by exact N. apply E7, N.
Qed.

Lemma under_way_head g0 l0 w i r : Inv g0 l0 w -> line G w = i :: r -> (forall todo, srv G (conns G w i) <> Syncing todo) ->
  explains g0 l0 (history G w) (graph G w) (pubs G w) [].
Proof.
  intros I Ln N. destruct (i_explains _ _ _ I) as (o & E & U). unfold under_way in U. rewrite Ln in U.
  destruct (srv G (conns G w i)) eqn:S; subst; auto. exfalso. exact (N _ eq_refl).
Qed.

Lemma server_ok g0 l0 w i w' : Inv g0 l0 w -> i < count G w ->
  server_step G connect_g disconnect_g dumps version i w = Some w' -> Inv g0 l0 w'.
Proof.
  intros I L. pose proof (i_good _ _ _ I i L) as Hg. unfold server_step. set (c := conns G w i) in *. destruct (srv G c) as [| |op|todo| | |] eqn:S.
  - rewrite greeting. intros H. injection H as <-. apply Inv_outside; auto; fold c; [rewrite S; exact (fun x => x)|apply Good_greet; auto].
  - destruct (sbuf G c) as [|b rest] eqn:B.
    + destruct (server_at_end G c) eqn:E; [|discriminate]. intros H. injection H as <-.
      apply Inv_outside; auto; fold c; [rewrite S; exact (fun x => x)|apply Good_eof; auto].
    + destruct (command_of_bytes [b]) as [op|] eqn:K; [|discriminate].
      destruct (Good_op i c _ b rest op Hg S B K) as [-> Hg']. rewrite request_served. intros H. injection H as <-.
      apply Inv_join with (op := command_of (what G c)); auto. fold c. now rewrite S.
  - destruct (line G w) as [|j others] eqn:Ln; [discriminate|]. destruct (Nat.eqb_spec i j) as [<-|]; [|discriminate].
    assert (NS : forall todo, srv G (conns G w i) <> Syncing todo) by (fold c; rewrite S; discriminate).
    pose proof (under_way_head _ _ _ _ _ I Ln NS) as E.
    destruct (run (read_args op) (sbuf G c)) as [q rest|rd rest|] eqn:R.
    + destruct (Prep_inline i c _ op q rest Hg S R) as [Wq P].
      assert (Wc : what G (set_sbuf G c rest) = q) by (symmetry; exact Wq).
      assert (Pick : match q with Sync => sync_next i (pubs G w) (set_conn G w i (set_sbuf G c rest)) | _ => take i q (set_conn G w i (set_sbuf G c rest)) end
                     = if match q with Sync => true | _ => false end then sync_next i (pubs G w) (set_conn G w i (set_sbuf G c rest)) else take i q (set_conn G w i (set_sbuf G c rest)))
        by (destruct q; reflexivity).
      intros H. assert (H' : w' = if match q with Sync => true | _ => false end then sync_next i (pubs G w) (set_conn G w i (set_sbuf G c rest)) else take i q (set_conn G w i (set_sbuf G c rest)))
        by (destruct q; injection H as <-; reflexivity).
      rewrite H'. clear H H' Pick. destruct q eqn:Q.
      3: { apply sync_ok with (w := w) (r := others) (c1 := set_sbuf G c rest) (l := []) (past := []) (o := []); auto.
           - intros m [].
           - rewrite app_nil_r. exact E.
           - cbn [set_conn history]. now rewrite app_nil_r.
           - cbn [set_conn conns]. apply upd_same.
           - intros j N. cbn [set_conn conns]. apply upd_other, N. }
      all: apply take_ok with (w := w) (r := others) (c1 := set_sbuf G c rest) (l := []) (o := []); auto;
        [intros m []|rewrite app_nil_r; exact E|cbn [set_conn history]; now rewrite app_nil_r
        |cbn [set_conn conns]; apply upd_same|intros j N; cbn [set_conn conns]; apply upd_other, N].
    + destruct (server_at_end G c) eqn:Ea; [|discriminate]. intros H. injection H as <-.
      unfold set_line, set_conn. cbn [graph pubs count conns history].
      apply Inv_release; auto. apply Good_break with (op := op); auto. intros x y X. congruence.
    + exfalso. destruct Hg as [_ _ _ _ _ _ (eaten & produced & tail & St & U & _)]. unfold stage in St. rewrite S in St.
      destruct St as (-> & _). apply (args_not_failed _ _ _ _ (eq_sym U) R).
  - discriminate.
  - intros H. injection H as <-. assert (In i (line G w)) as In1.
    { apply (i_line _ _ _ I). split; [exact L|]. fold c. rewrite S. exact Logic.I. }
    destruct (line G w) as [|j r] eqn:Ln; [destruct In1|].
    assert (j = i) as ->.
    { destruct In1 as [->|In1]; [reflexivity|]. destruct (i_tail _ _ _ I j r Ln i In1) as [op O]. fold c in O. congruence. }
    unfold set_line, set_conn. cbn [graph pubs line count conns history tl].
    apply Inv_release; auto; [apply Good_finish; auto|]. fold c. rewrite S. discriminate.
  - discriminate.
  - discriminate.
Qed.

(** ** The caller's side *)
Definition fair (i : nat) (r : result G) (c : call) (h : list mark) : Prop :=
  match r, c with
  | Returned _ None, Connect _ _ | Returned _ None, Disconnect _ _ | Returned _ None, Sync =>
      In (Took i c (ADone G)) h \/ In (Lost i) h
  | RaisedCyclic _, Connect _ _ => In (Took i c (ACyclic G)) h
  | Returned _ (Some g), Dag => In (Took i c (ADag G g)) h
  | Returned _ None, Pause | Returned _ None, Resume => True
  | RaisedOther _, _ => In (Lost i) h \/ In (GaveUp i) h \/ ~ sendable c
  | _, _ => False
  end.

Lemma back_ok g0 l0 w i r c' : Inv g0 l0 w -> i < count G w -> ~ is_over (conns G w i) ->
  srv G c' = srv G (conns G w i) -> Good i (set_cli G c' (Over G r)) (history G w ++ [CameBack i r]) ->
  fair i r (what G (conns G w i)) (history G w) -> Inv g0 l0 (give_back G i r c' w).
Proof.
  intros I L O Es Hg F. unfold give_back. pose proof (i_good _ _ _ I i L) as H0. apply Inv_conn; auto.
  apply in_order_snoc; [apply (i_order _ _ _ I)|]. cbn [ApiSpec.justified]. split.
  - intros r' X. apply (g_back _ _ _ H0) in X. apply O. eexists. exact X.
  - exists (what G (conns G w i)). split; [apply (g_called _ _ _ H0); reflexivity|exact F].
Qed.

Lemma set_cli_same (c : conn) r e b : set_cli G (Conn G (what G c) (cli G c) (up G c) e (sbuf G c) (srv G c) (down G c) (down_end G c) b) r
  = Conn G (what G c) r (up G c) e (sbuf G c) (srv G c) (down G c) (down_end G c) b.
Proof. reflexivity. Qed.

Lemma raise_ok g0 l0 w i r e b : Inv g0 l0 w -> i < count G w -> ~ is_over (conns G w i) ->
  (r = RaisedOther G \/ r = RaisedCyclic G) -> (e = up_end G (conns G w i) \/ e = true) ->
  fair i r (what G (conns G w i)) (history G w) ->
  let c := conns G w i in
  Inv g0 l0 (give_back G i r (Conn G (what G c) (cli G c) (up G c) e (sbuf G c) (srv G c) (down G c) (down_end G c) b) w).
Proof.
  intros I L O R E F c. apply back_ok; auto. rewrite set_cli_same. rewrite <- (app_nil_r (history G w)).
  apply Good_raise; auto. apply (i_good _ _ _ I i L).
Qed.

Lemma raise_same_ok g0 l0 w i : Inv g0 l0 w -> i < count G w -> ~ is_over (conns G w i) ->
  fair i (RaisedOther G) (what G (conns G w i)) (history G w) -> Inv g0 l0 (give_back G i (RaisedOther G) (conns G w i) w).
Proof.
  intros I L O F. pose proof (raise_ok g0 l0 w i (RaisedOther G) _ (cbuf G (conns G w i)) I L O (or_introl eq_refl) (or_introl eq_refl) F) as X.
  cbn zeta in X. destruct (conns G w i). exact X.
Qed.

Lemma return_ok g0 l0 w i x b : Inv g0 l0 w -> i < count G w -> cli G (conns G w i) = Waiting G ->
  fair i (Returned G x) (what G (conns G w i)) (history G w) ->
  let c := conns G w i in
  Inv g0 l0 (give_back G i (Returned G x) (Conn G (what G c) (cli G c) (up G c) true (sbuf G c) (srv G c) (down G c) (down_end G c) b) w).
Proof.
  intros I L O F c. apply back_ok; auto.
  - intros [r X]. congruence.
  - rewrite set_cli_same. apply Good_return; [apply (i_good _ _ _ I i L)|exact O].
Qed.

Lemma client_ok g0 l0 w i w' : Inv g0 l0 w -> i < count G w -> client_step G loads i w = Some w' -> Inv g0 l0 w'.
Proof.
  intros I L. pose proof (i_good _ _ _ I i L) as Hg. unfold client_step. set (c := conns G w i) in *.
  destruct (cli G c) as [| |r] eqn:C; [| |discriminate].
  - assert (O : ~ is_over (conns G w i)) by (intros [r X]; fold c in X; congruence).
    destruct (run read_str (cbuf G c)) as [s rest|rd rest|] eqn:R.
    + pose proof (opening_done _ _ _ _ _ Hg C R) as ->.
      destruct (write_request (what G c)) as [b ok] eqn:W. destruct ok.
      * pose proof (Good_write i c _ rest Hg C R) as Hw. rewrite W in Hw. specialize (Hw eq_refl). cbn [fst] in Hw.
        assert (Wt : forall c', c' = set_cli G (write_up G (set_cbuf G c rest) b) (Waiting G) -> Good i c' (history G w) -> Inv g0 l0 (set_conn G w i c')).
        { intros c' Ec Hc. apply Inv_ext with (w := note G (set_conn G w i c') []); cbn [note set_conn graph pubs line count conns history]; auto using app_nil_r.
          apply Inv_conn; auto; [now rewrite Ec|rewrite app_nil_r; exact Hc|rewrite app_nil_r; apply (i_order _ _ _ I)]. }
        assert (Bk : (what G c = Pause \/ what G c = Resume) ->
          Good i (set_cli G (close G (write_up G (set_cbuf G c rest) b)) (Over G (Returned G None))) (history G w ++ [CameBack i (Returned G None)]) ->
          Inv g0 l0 (give_back G i (Returned G None) (close G (write_up G (set_cbuf G c rest) b)) w)).
        { intros Wq Hc. apply back_ok; auto. fold c. destruct Wq as [-> | ->]; exact Logic.I. }
        destruct (what G c) eqn:Wc; intros H; injection H as <-; auto; apply Bk; auto.
      * intros H. injection H as <-. apply back_ok; auto.
        -- pose proof (Good_write_fails i c _ rest Hg C R) as Hw. rewrite W in Hw. exact (Hw eq_refl).
        -- right. right. intros Se. apply request_sendable in Se. fold c in Se. rewrite W in Se. discriminate Se.
    + destruct (client_at_end G c) eqn:E; [|discriminate]. intros H. injection H as <-.
      apply raise_same_ok; auto. left. exact (opening_end _ _ _ _ _ Hg C R E).
    + exfalso. exact (opening_not_failed _ _ _ Hg C R).
  - assert (O : ~ is_over (conns G w i)) by (intros [r X]; fold c in X; congruence).
    assert (NP : match what G c with Pause | Resume => False | _ => True end).
    { destruct Hg as [_ _ _ _ _ _ (e & p & t & _ & _ & _ & D)]. rewrite C in D. tauto. }
    assert (Cases : what G c = Dag \/ what G c <> Dag) by (destruct (what G c); auto; right; discriminate).
    destruct Cases as [Wd|Wd].
    + rewrite Wd. destruct (run read_dag (cbuf G c)) as [p rest|rd rest|] eqn:R.
      * destruct (waiting_dag _ _ _ _ _ Hg C Wd R) as (g & -> & T). rewrite pickle.
        assert (F : fair i (Returned G (Some g)) (what G (conns G w i)) (history G w)) by (fold c; rewrite Wd; exact T).
        destruct rest as [|b rest]; [destruct (client_at_end G c); [|discriminate]|]; intros H; injection H as <-.
        -- exact (return_ok g0 l0 w i (Some g) (cbuf G c) I L C F).
        -- exact (return_ok g0 l0 w i (Some g) rest I L C F).
      * destruct (client_at_end G c) eqn:E; [|discriminate]. intros H. injection H as <-.
        apply raise_same_ok; auto. left. exact (waiting_dag_end _ _ _ _ _ Hg C Wd R E).
      * exfalso. exact (read_dag_not_failed _ R).
    + assert (Fd : In (Took i (what G c) (ADone G)) (history G w) \/ In (Lost i) (history G w) -> fair i (Returned G None) (what G (conns G w i)) (history G w)).
      { fold c. intros X. destruct (what G c); cbn; auto. }
      destruct (cbuf G c) as [|b rest] eqn:B.
      * pose proof (waiting_end _ _ _ Hg C Wd B) as En.
        pose proof (return_ok g0 l0 w i None (cbuf G c) I L C) as Rt. cbn zeta in Rt.
        destruct (client_at_end G c); [specialize (Rt (Fd (or_intror (En eq_refl))))|];
          destruct (what G c) eqn:Wc; try (exfalso; apply Wd; reflexivity); try tauto; intros H; try discriminate; injection H as <-; exact Rt.
      * destruct (waiting_byte _ _ _ _ _ Hg C Wd B) as [[-> T]|(-> & T & f & t & Wf)].
        -- pose proof (return_ok g0 l0 w i None rest I L C (Fd (or_introl T))) as Rt. cbn zeta in Rt.
           destruct (what G c) eqn:Wc; try (exfalso; apply Wd; reflexivity); try tauto;
             [destruct (Byte.byte_eq_dec _ _) as [X|_]; [exfalso; revert X; vm_compute; discriminate|]| |];
             intros H; injection H as <-; exact Rt.
        -- rewrite Wf. destruct (Byte.byte_eq_dec _ _) as [_|X]; [|exfalso; apply X; reflexivity]. intros H. injection H as <-.
           apply (raise_ok g0 l0 w i (RaisedCyclic G) true rest I L O); auto. fold c. rewrite Wf. rewrite Wf in T. exact T.
Qed.

Lemma Good_fresh i c h : (forall m, In m h -> owner m <> Some i) -> Good i (fresh G c) (h ++ [Called i c]).
Proof.
  intros N. assert (Z : forall P, owner P = Some i -> (forall x, P <> Called i x) -> ~ In P (h ++ [Called i c])).
  { intros P O X Y. apply in_app_iff in Y as [Y|[Y|[]]]; [exact (N _ Y O)|exact (X c (eq_sym Y))]. }
  constructor; cbn [fresh what cli up up_end sbuf srv down down_end cbuf]; try discriminate.
  - intros x. rewrite in_app_iff. split.
    + intros [X|[X|[]]]; [exfalso; exact (N _ X eq_refl)|]. now injection X as <-.
    + intros ->. right. left. reflexivity.
  - intros r. split; [|discriminate]. intros X. exfalso. eapply Z; [| |exact X]; [reflexivity|discriminate].
  - intros X. exfalso. eapply Z; [| |exact X]; [reflexivity|discriminate].
  - intros X. exfalso. eapply Z; [| |exact X]; [reflexivity|discriminate].
  - exists [], [], (fst (write_request c)). cbn [app]. split; [|split; [reflexivity|split; [auto|]]].
    + cbn. repeat split. intros x a X. eapply Z; [| |exact X]; [reflexivity|discriminate].
    + split; [reflexivity|]. exists []. auto.
Qed.

Lemma Inv_start g l : Inv g l (start G g l).
Proof.
  constructor; cbn [start graph pubs line count conns history].
  - intros i X. lia.
  - intros m i [].
  - constructor.
  - intros i. split; [intros []|]. lia.
  - discriminate.
  - exists []. split; [constructor|reflexivity].
  - intros h1 m h2 E. destruct h1; discriminate.
Qed.

Lemma Inv_step g0 l0 w e w' : Inv g0 l0 w -> step w e = Some w' -> Inv g0 l0 w'.
Proof.
  intros I. destruct e as [c|i n|i n|i|i|i|i|i|i n|g l]; cbn [ApiModel.step].
  - intros H. injection H as <-. pose proof I as [I1 I2 I3 I4 I5 (o & I6 & I6') I7].
    assert (N : forall m, In m (history G w) -> owner m <> Some (count G w)).
    { intros m M O. specialize (I2 m _ M O). lia. }
    assert (U : forall j, j < count G w -> upd G (conns G w) (count G w) (fresh G c) j = conns G w j).
    { intros j J. apply upd_other. lia. }
    constructor; cbn [graph pubs line count conns history].
    + intros j J. destruct (Nat.eq_dec j (count G w)) as [->|Nj]; [rewrite upd_same; apply Good_fresh, N|].
      rewrite upd_other by exact Nj. apply Good_frame; [apply I1; lia|]. intros m [<-|[]]. cbn. congruence.
    + intros m j M O. apply in_app_iff in M as [M|[<-|[]]]; [specialize (I2 m j M O); lia|]. cbn in O. injection O as <-. lia.
    + exact I3.
    + intros j. rewrite I4. split; intros [J1 J2].
      * rewrite U by exact J1. split; [lia|exact J2].
      * destruct (Nat.eq_dec j (count G w)) as [->|Nj]; [rewrite upd_same in J2; destruct J2|].
        rewrite upd_other in J2 by exact Nj. split; [lia|exact J2].
    + intros i r E j J. rewrite U; [exact (I5 i r E j J)|]. apply I4. rewrite E. right. exact J.
    + exists o. split; [apply e_caller; [exact I6|reflexivity]|]. unfold under_way in *. cbn [line conns pubs].
      destruct (line G w) as [|j r] eqn:E; [exact I6'|]. rewrite U; [exact I6'|]. apply I4. left. reflexivity.
    + apply in_order_snoc; [exact I7|]. intros x X. exact (N _ X eq_refl).
  - destruct (Nat.ltb_spec i (count G w)) as [L|]; [|discriminate].
    destruct (Nat.ltb_spec 0 n) as [L1|]; [|discriminate]. destruct (Nat.leb_spec n (length (up G (conns G w i)))) as [L2|]; [|discriminate].
    cbn [andb]. intros H. injection H as <-.
    apply Inv_ext with (w := note G (set_conn G w i (Conn G (what G (conns G w i)) (cli G (conns G w i)) (skipn n (up G (conns G w i))) (up_end G (conns G w i))
      (sbuf G (conns G w i) ++ firstn n (up G (conns G w i))) (srv G (conns G w i)) (down G (conns G w i)) (down_end G (conns G w i)) (cbuf G (conns G w i)))) []); auto.
    + apply Inv_conn; auto; rewrite app_nil_r; [|apply (i_order _ _ _ I)]. apply Good_arrive_up; auto. apply (i_good _ _ _ I i L).
    + cbn. now rewrite app_nil_r.
  - destruct (Nat.ltb_spec i (count G w)) as [L|]; [|discriminate].
    destruct (0 <? n); [|discriminate]. destruct (n <=? _); [|discriminate].
    cbn [andb]. intros H. injection H as <-.
    apply Inv_ext with (w := note G (set_conn G w i (Conn G (what G (conns G w i)) (cli G (conns G w i)) (up G (conns G w i)) (up_end G (conns G w i))
      (sbuf G (conns G w i)) (srv G (conns G w i)) (skipn n (down G (conns G w i))) (down_end G (conns G w i)) (cbuf G (conns G w i) ++ firstn n (down G (conns G w i))))) []); auto.
    + apply Inv_conn; auto; rewrite app_nil_r; [|apply (i_order _ _ _ I)]. apply Good_arrive_down; auto. apply (i_good _ _ _ I i L).
    + cbn. now rewrite app_nil_r.
  - destruct (Nat.ltb_spec i (count G w)) as [L|]; [|discriminate]. apply server_ok; auto.
  - destruct (Nat.ltb_spec i (count G w)) as [L|]; [|discriminate].
    destruct (srv G (conns G w i)) as [| |op|todo| | |] eqn:S; try discriminate. destruct todo as [|p todo]; [discriminate|].
    intros H. injection H as <-.
    destruct (Prep_syncing _ _ _ _ (i_good _ _ _ I i L) S) as (W & _ & P).
    assert (In i (line G w)) as In1 by (apply (i_line _ _ _ I); split; [exact L|rewrite S; exact Logic.I]).
    destruct (line G w) as [|j r] eqn:Ln; [destruct In1|].
    assert (j = i) as ->.
    { destruct In1 as [->|In1]; [reflexivity|]. destruct (i_tail _ _ _ I j r Ln i In1) as [op O]. congruence. }
    destruct (i_explains _ _ _ I) as (o & E & U). unfold under_way in U. rewrite Ln, S in U.
    destruct U as (past & p' & rest & Eq & Pb & Ho). injection Eq as <- <-.
    apply sync_ok with (w := w) (r := r) (c1 := conns G w i) (l := [Confirmed i p]) (past := past ++ [p]) (o := o ++ [Confirmed i p]); auto.
    + intros m [<-|[]]. right. eauto.
    + apply e_publisher; [exact E|reflexivity].
    + rewrite Pb, <- app_assoc. reflexivity.
    + rewrite Ho, flat_map_app, <- app_assoc. cbn. reflexivity.
  - destruct (Nat.ltb_spec i (count G w)) as [L|]; [|discriminate]. apply client_ok; auto.
  - destruct (Nat.ltb_spec i (count G w)) as [L|]; [|discriminate].
    assert (G1 : ~ is_over (conns G w i) -> Inv g0 l0 (give_back G i (RaisedOther G) (conns G w i) (note G w [GaveUp i]))).
    { intros O. unfold give_back.
      apply Inv_ext with (w := note G (set_conn G w i (set_cli G (conns G w i) (Over G (RaisedOther G)))) ([GaveUp i] ++ [CameBack i (RaisedOther G)]));
        cbn [note set_conn graph pubs line count conns history]; auto; [|now rewrite <- app_assoc].
      pose proof (i_good _ _ _ I i L) as H0.
      apply Inv_conn; auto; [repeat constructor| |].
      - rewrite app_assoc. pose proof (Good_raise i _ _ (RaisedOther G) [GaveUp i] H0 O (or_introl eq_refl) (or_intror eq_refl) _ (cbuf G (conns G w i)) (or_introl eq_refl)) as X.
        exact X.
      - rewrite app_assoc. apply in_order_snoc; [apply in_order_snoc; [apply (i_order _ _ _ I)|exact Logic.I]|]. cbn [ApiSpec.justified]. split.
        + intros r' X. apply in_app_iff in X as [X|[X|[]]]; [|discriminate]. apply (g_back _ _ _ H0) in X. apply O. eexists. exact X.
        + exists (what G (conns G w i)). split; [apply in_app_iff; left; apply (g_called _ _ _ H0); reflexivity|].
          right. left. apply in_app_iff. right. left. reflexivity. }
    destruct (cli G (conns G w i)) as [| |r] eqn:C; [| |discriminate]; intros H; injection H as <-; apply G1; intros [x X]; congruence.
  - destruct (Nat.ltb_spec i (count G w)) as [L|]; [|discriminate].
    destruct (cli G (conns G w i)) as [| |r] eqn:C; try discriminate. intros H. injection H as <-.
    apply Inv_conn; auto.
    + apply Good_close; [apply (i_good _ _ _ I i L)|eexists; exact C].
    + apply in_order_snoc; [apply (i_order _ _ _ I)|exact Logic.I].
  - destruct (Nat.ltb_spec i (count G w)) as [L|]; [|discriminate]. destruct (down_end G (conns G w i)); [discriminate|].
    cbn [negb andb]. intros H. injection H as <-.
    apply Inv_conn; auto.
    + apply Good_lose. apply (i_good _ _ _ I i L).
    + apply in_order_snoc; [apply (i_order _ _ _ I)|exact Logic.I].
  - destruct (line G w) as [|j r] eqn:Ln; [|discriminate]. intros H. injection H as <-.
    pose proof I as [I1 I2 I3 I4 I5 (o & I6 & I6') I7]. unfold under_way in I6'. rewrite Ln in I6'. subst o.
    constructor; cbn [note graph pubs line count conns history].
    + intros i L. apply Good_frame; [apply I1, L|]. intros m [<-|[]]. discriminate.
    + intros m i M O. apply in_app_iff in M as [M|[<-|[]]]; [exact (I2 m i M O)|discriminate].
    + constructor.
    + rewrite <- Ln. exact I4.
    + discriminate.
    + exists []. split; [|reflexivity]. apply e_changed with (g1 := graph G w) (l1 := pubs G w). exact I6.
    + apply in_order_snoc; [exact I7|exact Logic.I].
Qed.

Lemma Inv_steps g0 l0 : forall es w w', Inv g0 l0 w -> steps w es = Some w' -> Inv g0 l0 w'.
Proof.
  induction es as [|e es IH]; cbn [ApiModel.steps]; intros w w' I H; [injection H as <-; exact I|].
  destruct (step w e) as [w1|] eqn:S; [|discriminate]. exact (IH w1 w' (Inv_step _ _ _ _ _ I S) H).
Qed.

Lemma reachable_inv g l w : reachable G connect_g disconnect_g dumps loads version g l w -> Inv g l w.
Proof. intros [es H]. exact (Inv_steps g l es _ _ (Inv_start g l) H). Qed.

(** ** At rest *)
Notation at_rest := (at_rest G connect_g disconnect_g dumps loads version).
Notation goes_on := (goes_on G connect_g disconnect_g dumps loads version).

Definition given_up_on (w : world) : Prop :=
  forall i c, In (Called i c) (history G w) -> ~ sendable c -> In (Dropped i) (history G w) \/ In (Lost i) (history G w).

Section Rest.
Variables (g0 : G) (l0 : list nat) (w : world).
Hypothesis I : Inv g0 l0 w.
Hypothesis Q : at_rest w.

Lemma rest_up i : i < count G w -> up G (conns G w i) = [].
Proof.
  intros L. pose proof (Q (ArriveUp G i 1) eq_refl) as X. cbn [ApiModel.step] in X.
  apply Nat.ltb_lt in L. rewrite L in X. cbn [andb Nat.ltb Nat.leb] in X. destruct (up G (conns G w i)); [reflexivity|discriminate].
Qed.

Lemma rest_down i : i < count G w -> down G (conns G w i) = [].
Proof.
  intros L. pose proof (Q (ArriveDown G i 1) eq_refl) as X. cbn [ApiModel.step] in X.
  apply Nat.ltb_lt in L. rewrite L in X. cbn [andb Nat.ltb Nat.leb] in X. destruct (down G (conns G w i)); [reflexivity|discriminate].
Qed.

Lemma rest_server i : i < count G w -> server_step G connect_g disconnect_g dumps version i w = None.
Proof. intros L. pose proof (Q (Server G i) eq_refl) as X. cbn [ApiModel.step] in X. apply Nat.ltb_lt in L. now rewrite L in X. Qed.

Lemma rest_client i : i < count G w -> client_step G loads i w = None.
Proof. intros L. pose proof (Q (Client G i) eq_refl) as X. cbn [ApiModel.step] in X. apply Nat.ltb_lt in L. now rewrite L in X. Qed.

Lemma rest_srv i : i < count G w -> srv G (conns G w i) = Asked /\ sbuf G (conns G w i) = [] \/
  (exists op, srv G (conns G w i) = InLine op) \/ srv G (conns G w i) = Closed \/ srv G (conns G w i) = Broken.
Proof.
  intros L. pose proof (rest_server i L) as X. unfold server_step in X. pose proof (i_good _ _ _ I i L) as Hg.
  destruct (srv G (conns G w i)) as [| |op|todo| | |] eqn:S; auto.
  - rewrite greeting in X. discriminate.
  - left. split; [reflexivity|]. destruct (sbuf G (conns G w i)) as [|b rest] eqn:B; [reflexivity|exfalso].
    destruct (command_of_bytes [b]) as [op|] eqn:K.
    + destruct (Good_op _ _ _ _ _ _ Hg S B K) as [-> _]. rewrite request_served in X. discriminate.
    + destruct Hg as [_ _ _ _ _ _ (e & p & t & St & U & _)]. unfold stage in St. rewrite S in St. destruct St as (-> & _).
      rewrite B in U. destruct (request_head (what G (conns G w i))) as [x Hx]. rewrite Hx in U. injection U as -> _.
      rewrite command_of_byte in K. discriminate.
  - right. left. eauto.
  - exfalso. destruct (Prep_syncing _ _ _ _ Hg S) as (_ & N & _). destruct todo as [|p todo]; [congruence|].
    pose proof (Q (Confirm G i) eq_refl) as Y. cbn [ApiModel.step] in Y. apply Nat.ltb_lt in L. rewrite L, S in Y. discriminate.
  - discriminate.
Qed.

Lemma rest_line : given_up_on w -> line G w = [].
Proof.
  intros Gu. destruct (line G w) as [|i r] eqn:Ln; [reflexivity|exfalso].
  assert (Hi : i < count G w /\ holds (srv G (conns G w i))) by (apply (i_line _ _ _ I); rewrite Ln; left; reflexivity).
  destruct Hi as [L Ho]. pose proof (i_good _ _ _ I i L) as Hg.
  destruct (rest_srv i L) as [[S _]|[[op S]|[S|S]]]; rewrite S in Ho; try exact Ho.
  pose proof (rest_server i L) as X. unfold server_step in X. rewrite S, Ln, Nat.eqb_refl in X.
  pose proof (rest_up i L) as Up. set (c := conns G w i) in *.
  destruct (run (read_args op) (sbuf G c)) as [q rest|rd rest|] eqn:R; [destruct q; discriminate| |discriminate].
  unfold server_at_end in X. rewrite Up, andb_true_r in X. destruct (up_end G c) eqn:Ue; [discriminate|].
  assert (Nl : ~ lost i (history G w)) by (intros Z; apply (g_lost _ _ _ Hg) in Z as [Z _]; congruence).
  pose proof Hg as [A1 A2 A3 A4 A4' A5 (e & p & t & St & U & T & _)]. unfold stage in St. rewrite S in St. destruct St as (-> & _).
  destruct T as [T|[T| ->]]; [tauto|discriminate|]. rewrite Up, !app_nil_r in U. cbn [app] in U.
  destruct (request_head (what G c)) as [x Hx]. rewrite Hx in U. injection U as U0 U1. apply command_byte_inj in U0 as ->. subst x.
  destruct (write_request (what G c)) as [bs ok] eqn:W. cbn [fst] in Hx. subst bs.
  destruct (args_full _ _ _ W) as [[_ F]|[-> _]]; [congruence|].
  destruct (Gu i (what G c)) as [Z|Z]; [apply A1; reflexivity| | |tauto].
  - intros Se. apply request_sendable in Se. rewrite W in Se. discriminate.
  - apply A5 in Z. congruence.
Qed.

Lemma rest_srv_free i : given_up_on w -> i < count G w -> srv G (conns G w i) = Asked /\ sbuf G (conns G w i) = [] \/
  srv G (conns G w i) = Closed \/ srv G (conns G w i) = Broken.
Proof.
  intros Gu L. destruct (rest_srv i L) as [S|[[op S]|S]]; auto. exfalso.
  assert (In i (line G w)) as X by (apply (i_line _ _ _ I); rewrite S; split; [exact L|exact Logic.I]).
  rewrite (rest_line Gu) in X. exact X.
Qed.

Lemma request_not_nil c : fst (write_request c) <> [].
Proof. destruct (request_head c) as [b ->]. discriminate. Qed.

Lemma rest_back i : given_up_on w -> i < count G w ->
  (exists r, cli G (conns G w i) = Over G r) \/ exists g, In (NotSent i g) (history G w).
Proof.
  intros Gu L. pose proof (i_good _ _ _ I i L) as Hg. pose proof (rest_client i L) as X.
  pose proof (rest_up i L) as Up. pose proof (rest_down i L) as Dn. pose proof (rest_srv_free i Gu L) as Sv.
  assert (En : lost i (history G w) -> client_at_end G (conns G w i) = true).
  { intros Z. apply (g_lost _ _ _ Hg) in Z as [_ Z]. unfold client_at_end. now rewrite Z, Dn. }
  unfold client_step in X. set (c := conns G w i) in *. destruct (cli G c) as [| |r] eqn:C; [| |left; eauto].
  - exfalso. destruct (opening_down i c _ Hg C) as (t & p & E & Hl & P).
    destruct P as [[_ F]|[y ->]]; [destruct Sv as [[S _]|[S|S]]; congruence|].
    destruct (run read_str (cbuf G c)) as [s rest|rd rest|] eqn:R.
    + destruct (write_request (what G c)) as [b [|]]; [|discriminate]. destruct (what G c); discriminate.
    + destruct Hl as [Hl| ->]; [rewrite (En Hl) in X; discriminate|]. rewrite Dn, !app_nil_r in E.
      rewrite E, (run_read_str _ _ _ greeting) in R. discriminate.
    + discriminate.
  - destruct (client_at_end G c) eqn:E.
    { exfalso. destruct (what G c); try (destruct (cbuf G c); [discriminate|]; try destruct (Byte.byte_eq_dec _ _); discriminate).
      destruct (run read_dag (cbuf G c)) as [p rest|rd rest|]; try discriminate. destruct (loads p); [|discriminate]. destruct rest; discriminate. }
    assert (Nl : ~ lost i (history G w)) by (intros Z; apply En in Z; congruence).
    pose proof Hg as [A1 A2 A3 A4 A4' A5 (e & p & t & St & U & T & D)]. rewrite C in D. destruct D as (D1 & D2 & (t' & D3 & D4) & D5).
    destruct D1 as [D1| ->]; [tauto|]. destruct D4 as [D4| ->]; [tauto|]. rewrite Up, !app_nil_r in U. rewrite Dn, !app_nil_r in D3.
    unfold stage in St. destruct Sv as [[S Sb]|[S|S]]; rewrite S in St.
    + exfalso. destruct St as (-> & _). rewrite Sb in U. exact (request_not_nil _ (eq_sym U)).
    + exfalso. destruct St as [[_ (a & b & Ta & B & F & ->)]|(-> & Sb & _)]; [|rewrite Sb in U; exact (request_not_nil _ (eq_sym U))].
      apply app_inv_head in D3. destruct (what G c) eqn:Wc, a as [| |g|]; cbn in F; try tauto.
      1-4: injection B as <-; rewrite D3 in X; try destruct (Byte.byte_eq_dec _ _); discriminate.
      pose proof (dag_answer g b B []) as R. rewrite app_nil_r in R. rewrite D3, R, pickle in X. discriminate.
    + destruct St as [_ [(_ & _ & Ue & _)|(_ & (g & Ng & _) & _)]]; [exfalso|right; eauto].
      destruct (A3 Ue) as [Z|[r Z]]; [tauto|congruence].
Qed.

Lemma justified_back i r : In (CameBack i r) (history G w) -> exists c, In (Called i c) (history G w) /\ fair i r c (history G w).
Proof.
  intros X. apply in_split in X as (h1 & h2 & E). pose proof (i_order _ _ _ I _ _ _ E) as [_ (c & Hc & F)].
  assert (Mo : forall m, In m h1 -> In m (history G w)) by (intros m M; rewrite E; apply in_app_iff; left; exact M).
  exists c. split; [apply Mo, Hc|]. destruct r as [[g|]| |], c; cbn in F |- *; try tauto; try (apply Mo, F); try (destruct F as [F|F]; [left|right]; apply Mo, F).
  all: destruct F as [F|[F|F]]; [left; apply Mo, F|right; left; apply Mo, F|right; right; exact F].
Qed.

Lemma rest_taken i c : given_up_on w -> In (Called i c) (history G w) -> sendable c -> ~ lost i (history G w) -> ~ In (GaveUp i) (history G w) ->
  (exists a, In (Took i c a) (history G w)) \/ exists g, In (NotSent i g) (history G w).
Proof.
  intros Gu Hc Se Nl Ng. pose proof (i_marks _ _ _ I _ i Hc eq_refl) as L.
  destruct (rest_back i Gu L) as [[r C]|N]; [|right; exact N].
  pose proof (i_good _ _ _ I i L) as Hg. pose proof (rest_srv_free i Gu L) as Sv. pose proof (rest_up i L) as Up.
  assert (Wc : c = what G (conns G w i)) by (apply (g_called _ _ _ Hg), Hc).
  pose proof (proj2 (g_back _ _ _ Hg r) C) as Hb. destruct (justified_back i r Hb) as (c' & Hc' & F).
  assert (c' = c) as -> by (rewrite Wc; apply (g_called _ _ _ Hg), Hc').
  destruct r as [x| |].
  - pose proof Hg as [A1 A2 A3 A4 A4' A5 (e & p & t & St & U & T & D)]. rewrite C in D. destruct D as [[D|D] _]; [tauto|]. subst t.
    rewrite Up, !app_nil_r in U. unfold stage in St. rewrite Wc. destruct Sv as [[S Sb]|[S|S]]; rewrite S in St.
    + exfalso. destruct St as (-> & _). rewrite Sb in U. exact (request_not_nil _ (eq_sym U)).
    + destruct St as [[_ (a & b & Ta & _)]|(-> & Sb & _)]; [left; eauto|]. exfalso. rewrite Sb in U. exact (request_not_nil _ (eq_sym U)).
    + destruct St as [_ [(_ & (op & ->) & _ & _ & Nr)|(_ & (g & Ns & _) & _)]]; [exfalso|right; eauto].
      cbn [app] in U. destruct (request_head (what G (conns G w i))) as [y Hy]. rewrite Hy in U. injection U as U0 U1.
      apply command_byte_inj in U0 as ->. subst y. destruct (write_request (what G (conns G w i))) as [bs ok] eqn:W. cbn [fst] in Hy. subst bs.
      rewrite Wc in Se. apply request_sendable in Se. rewrite W in Se. cbn [snd] in Se. subst ok.
      destruct (args_full _ _ _ W) as [[_ R]|[R _]]; [|discriminate]. exact (Nr _ _ _ eq_refl R).
  - left. destruct c; cbn in F; try tauto. eauto.
  - exfalso. unfold fair in F. unfold lost in Nl. tauto.
Qed.
End Rest.

(** ** Everything comes to rest *)
Fixpoint total (m : conn -> nat) (f : nat -> conn) (n : nat) : nat :=
  match n with 0 => 0 | S k => total m f k + m (f k) end.

Lemma total_same m f f' : forall n, (forall j, j < n -> f' j = f j) -> total m f' n = total m f n.
Proof. induction n as [|n IH]; intros E; [reflexivity|]. cbn. rewrite IH by (intros j J; apply E; lia). now rewrite E by lia. Qed.

Lemma total_upd m f f' i : forall n, i < n -> (forall j, j <> i -> f' j = f j) -> total m f' n + m (f i) = total m f n + m (f' i).
Proof.
  induction n as [|n IH]; intros L E; [lia|]. cbn. destruct (Nat.eq_dec i n) as [->|N].
  - rewrite (total_same m f f' n) by (intros j J; apply E; lia). lia.
  - rewrite (E n) by congruence. specialize (IH ltac:(lia) E). lia.
Qed.

Definition phase (k : nat) (c : conn) : nat :=
  match cli G c with Opening _ => 2 | Waiting _ => 1 | Over _ _ => 0 end +
  match srv G c with Fresh => 5 + k | Asked => 4 + k | InLine _ => 3 + k | Syncing todo => 2 + length todo | Answered => 1 | Closed | Broken => 0 end.
Definition load (c : conn) : nat := length (up G c) + length (down G c).

(** Only connection i changes, and it is further on. *)
Definition further (i : nat) (w w' : world) : Prop :=
  count G w' = count G w /\ pubs G w' = pubs G w /\ (forall j, j <> i -> conns G w' j = conns G w j) /\
  phase (length (pubs G w)) (conns G w' i) < phase (length (pubs G w)) (conns G w i).

Lemma further_take i q w w1 : count G w1 = count G w -> pubs G w1 = pubs G w -> (forall j, j <> i -> conns G w1 j = conns G w j) ->
  cli G (conns G w1 i) = cli G (conns G w i) ->
  (exists op, srv G (conns G w i) = InLine op) \/ (exists todo, srv G (conns G w i) = Syncing todo) -> further i w (take i q w1).
Proof.
  intros E1 E2 E3 E4 E5. unfold ApiModel.take. destruct (apply q (graph G w1)) as [g a]. destruct (write_answer a) as [b|].
  all: split; [exact E1|split; [exact E2|split; [intros j N; cbn; rewrite upd_other by exact N; apply E3, N|]]].
  all: cbn [note set_line set_conn set_graph conns]; rewrite upd_same; unfold phase; cbn [set_srv write_down cli srv]; rewrite E4;
    destruct E5 as [[op ->]|[todo ->]]; destruct (cli G (conns G w i)); cbn [Nat.add]; lia.
Qed.

Lemma further_sync i todo w w1 : count G w1 = count G w -> pubs G w1 = pubs G w -> (forall j, j <> i -> conns G w1 j = conns G w j) ->
  cli G (conns G w1 i) = cli G (conns G w i) ->
  ((exists op, srv G (conns G w i) = InLine op) /\ length todo <= length (pubs G w)) \/ (exists p, srv G (conns G w i) = Syncing (p :: todo)) ->
  further i w (sync_next i todo w1).
Proof.
  intros E1 E2 E3 E4 E5. destruct todo as [|p todo]; cbn [ApiModel.sync_next].
  - apply further_take; auto. destruct E5 as [[E5 _]|[p E5]]; eauto.
  - split; [exact E1|split; [exact E2|split; [intros j N; cbn; rewrite upd_other by exact N; apply E3, N|]]].
    cbn [note set_conn conns]. rewrite upd_same. unfold phase. cbn [set_srv cli srv]. rewrite E4.
    destruct E5 as [[[op ->] Le]|[p' ->]]; destruct (cli G (conns G w i)); cbn [length Nat.add] in *; lia.
Qed.

Lemma further_set i w c' : phase (length (pubs G w)) c' < phase (length (pubs G w)) (conns G w i) ->
  forall l h, further i w (World G (graph G w) (pubs G w) l (count G w) (upd G (conns G w) i c') h).
Proof.
  intros P l h. split; [reflexivity|split; [reflexivity|split; [intros j N; cbn; apply upd_other, N|]]]. cbn. rewrite upd_same. exact P.
Qed.

Ltac apply_set := unfold give_back, note, set_line, set_conn; cbn [graph pubs line count conns history]; apply further_set.

Lemma further_server i w w' : server_step G connect_g disconnect_g dumps version i w = Some w' -> further i w w'.
Proof.
  unfold server_step. destruct (srv G (conns G w i)) as [| |op|todo| | |] eqn:S; try discriminate.
  - destruct (encode_str version); intros H; injection H as <-; apply_set; unfold phase; cbn [set_srv write_down cli srv]; rewrite S; lia.
  - destruct (sbuf G (conns G w i)) as [|b rest].
    + destruct (server_at_end G _); [|discriminate]. intros H; injection H as <-. apply_set. unfold phase. cbn [hang_up set_srv cli srv]. rewrite S. lia.
    + destruct (command_of_bytes [b]) as [op|]; [|discriminate]. destruct (served op); [|discriminate]. intros H; injection H as <-.
      apply_set. unfold phase. cbn [set_srv set_sbuf cli srv]. rewrite S. lia.
  - destruct (line G w) as [|j others]; [discriminate|]. destruct (i =? j); [|discriminate].
    destruct (run (read_args op) (sbuf G (conns G w i))) as [q rest|rd rest|].
    + assert (T : forall q, further i w (take i q (set_conn G w i (set_sbuf G (conns G w i) rest)))).
      { intros q'. apply further_take; auto; [intros j' N; cbn; apply upd_other, N|cbn; rewrite upd_same; reflexivity|left; eauto]. }
      destruct q; intros H; injection H as <-; try apply T.
      apply further_sync; auto; [intros j' N; cbn; apply upd_other, N|cbn; rewrite upd_same; reflexivity|left; split; eauto].
    + destruct (server_at_end G _); [|discriminate]. intros H; injection H as <-. apply_set. unfold phase. cbn [set_srv cli srv]. rewrite S. lia.
    + intros H; injection H as <-. apply_set. unfold phase. cbn [set_srv cli srv]. rewrite S. lia.
  - intros H; injection H as <-. apply_set. unfold phase. cbn [hang_up set_srv cli srv]. rewrite S. lia.
Qed.

Lemma further_back i r c w : cli G (conns G w i) <> Over G r -> ~ is_over (conns G w i) -> srv G c = srv G (conns G w i) -> further i w (give_back G i r c w).
Proof.
  intros _ O E. apply_set. unfold phase. cbn [set_cli cli srv]. rewrite E. destruct (cli G (conns G w i)) eqn:C; try lia.
  exfalso. apply O. eexists. exact C.
Qed.

Lemma further_client i w w' : client_step G loads i w = Some w' -> further i w w'.
Proof.
  assert (B : forall r c, ~ is_over (conns G w i) -> srv G c = srv G (conns G w i) -> further i w (give_back G i r c w)).
  { intros r c O E. apply further_back; auto. intros X. apply O. eexists. exact X. }
  unfold client_step. destruct (cli G (conns G w i)) as [| |r] eqn:C; [| |discriminate].
  all: assert (O : ~ is_over (conns G w i)) by (intros [r X]; congruence).
  - destruct (run read_str (cbuf G (conns G w i))) as [s rest|rd rest|].
    + destruct (write_request (what G (conns G w i))) as [b [|]]; [|intros H; injection H as <-; apply B; auto].
      assert (Wt : further i w (set_conn G w i (set_cli G (write_up G (set_cbuf G (conns G w i) rest) b) (Waiting G)))).
      { apply_set. unfold phase. cbn [set_cli write_up set_cbuf cli srv]. rewrite C. lia. }
      destruct (what G (conns G w i)); intros H; injection H as <-; auto.
    + destruct (client_at_end G _); [|discriminate]. intros H; injection H as <-; apply B; auto.
    + intros H; injection H as <-; apply B; auto.
  - destruct (what G (conns G w i)).
    all: try (destruct (cbuf G (conns G w i)) as [|b rest];
      [destruct (client_at_end G _); [|discriminate]|try destruct (Byte.byte_eq_dec _ _)]; intros H; injection H as <-; apply B; auto; fail).
    destruct (run read_dag (cbuf G (conns G w i))) as [p rest|rd rest|].
    + destruct (loads p); [|intros H; injection H as <-; apply B; auto].
      destruct rest; [destruct (client_at_end G _); [|discriminate]|]; intros H; injection H as <-; apply B; auto.
    + destruct (client_at_end G _); [|discriminate]. intros H; injection H as <-; apply B; auto.
    + intros H; injection H as <-; apply B; auto.
Qed.

Lemma further_total i w w' : i < count G w -> further i w w' ->
  total (phase (length (pubs G w'))) (conns G w') (count G w') < total (phase (length (pubs G w))) (conns G w) (count G w).
Proof.
  intros L (E1 & E2 & E3 & P). rewrite E1, E2. pose proof (total_upd (phase (length (pubs G w))) (conns G w) (conns G w') i (count G w) L E3). lia.
Qed.

Lemma rests : well_founded goes_on.
Proof.
  assert (K : forall n m w, total (phase (length (pubs G w))) (conns G w) (count G w) = n -> total load (conns G w) (count G w) = m -> Acc goes_on w).
  { induction n as [n IHn] using lt_wf_ind. induction m as [m IHm] using lt_wf_ind. intros w En Em. constructor. intros w' (e & B & H).
    assert (F : forall i, i < count G w -> further i w w' -> Acc goes_on w').
    { intros i L Fu. apply further_total in Fu; [|exact L]. rewrite En in Fu. eapply IHn; [exact Fu|reflexivity|reflexivity]. }
    assert (A : forall i c', i < count G w -> w' = set_conn G w i c' -> phase (length (pubs G w)) c' = phase (length (pubs G w)) (conns G w i) ->
              load c' < load (conns G w i) -> Acc goes_on w').
    { intros i c' L -> P Lo. cbn [set_conn pubs conns count] in *.
      pose proof (total_upd (phase (length (pubs G w))) (conns G w) (upd G (conns G w) i c') i (count G w) L (fun j N => upd_other _ _ _ _ N)) as T1.
      pose proof (total_upd load (conns G w) (upd G (conns G w) i c') i (count G w) L (fun j N => upd_other _ _ _ _ N)) as T2.
      rewrite upd_same in T1, T2. eapply (IHm (total load (upd G (conns G w) i c') (count G w))); [lia|cbn; lia|reflexivity]. }
    destruct e as [c|i n'|i n'|i|i|i|i|i|i n'|g l]; try discriminate; cbn [ApiModel.step] in H;
      destruct (Nat.ltb_spec i (count G w)) as [L|]; try discriminate.
    - destruct (Nat.ltb_spec 0 n') as [L1|]; [|discriminate]. destruct (Nat.leb_spec n' (length (up G (conns G w i)))) as [L2|]; [|discriminate].
      cbn [andb] in H. injection H as <-. eapply A; [exact L|reflexivity|reflexivity|]. unfold load. cbn [up down]. rewrite skipn_length. lia.
    - destruct (Nat.ltb_spec 0 n') as [L1|]; [|discriminate]. destruct (Nat.leb_spec n' (length (down G (conns G w i)))) as [L2|]; [|discriminate].
      cbn [andb] in H. injection H as <-. eapply A; [exact L|reflexivity|reflexivity|]. unfold load. cbn [up down]. rewrite skipn_length. lia.
    - apply (F i L). apply further_server, H.
    - destruct (srv G (conns G w i)) as [| |op|todo| | |] eqn:S; try discriminate. destruct todo as [|p todo]; [discriminate|]. injection H as <-.
      apply (F i L). apply further_sync; auto. right. eauto.
    - apply (F i L). apply further_client, H. }
  intros w. eapply K; reflexivity.
Qed.
End Api.
