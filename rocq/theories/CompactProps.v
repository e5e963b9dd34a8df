(* C63: compactifying a graph for display. *)

From Coq Require Import List Arith Bool Lia.
From Verif Require Import Dict PruneModel PruneProps.
Import ListNotations.

Section Proofs.
Context {S : Type} `{Dec S}.
Notation topic := (list S).
Notation graph := (list (topic * list topic)).
Notation memo := (list (topic * topic)).
Notation levels := (list (topic * nat)).

Definition extends (m m' : memo) : Prop := forall t u, get t m = Some u -> get t m' = Some u.

Definition sound (m : memo) : Prop := forall t u, get t m = Some u -> u = t \/ (u = parent t /\ parent t <> []).

Lemma extends_refl m : extends m m.
Proof. intros t u E. exact E. Qed.

Lemma extends_trans a b c : extends a b -> extends b c -> extends a c.
Proof. intros X Y t u E. apply Y. apply X. exact E. Qed.

Lemma node_update_spec t m l u m' l' :
  node_update t (m, l) = (u, (m', l')) ->
  extends m m' /\ get t m' = Some u /\ (sound m -> sound m').
Proof.
  unfold node_update. destruct (get t m) as [u0|] eqn:G.
  - intros E. injection E as <- <- <-. split; [apply extends_refl|]. auto.
  - assert (P : forall v, (v = t \/ (v = parent t /\ parent t <> [])) ->
                extends m (put t v m) /\ get t (put t v m) = Some v /\ (sound m -> sound (put t v m))).
    { intros v V. split; [|split].
      - intros x y E. rewrite get_put. destruct (dec x t) as [->|]; [congruence|exact E].
      - apply get_put_eq.
      - intros So x y E. rewrite get_put in E. destruct (dec x t) as [->|]; [injection E as <-; exact V|apply So; exact E]. }
    destruct (parent t) as [|a p] eqn:Ep.
    + intros E. injection E as <- <- <-. apply P. auto.
    + destruct (getd (a :: p) 0 l =? getd t 0 l + 1); intros E; injection E as <- <- <-; apply P; auto.
      right. split; [reflexivity|discriminate].
Qed.

Lemma node_updates_spec ts : forall m l us m' l',
  node_updates ts (m, l) = (us, (m', l')) ->
  extends m m' /\ (sound m -> sound m') /\
  (forall b, In b us <-> exists v, In v ts /\ get v m' = Some b) /\ (forall v, In v ts -> exists b, get v m' = Some b).
Proof.
  induction ts as [|t ts IH]; intros m l us m' l' E; cbn [node_updates] in E.
  - injection E as <- <- <-. split; [apply extends_refl|]. split; [auto|]. split; [|intros v []].
    intros b. split; [intros []|intros (v & [] & _)].
  - destruct (node_update t (m, l)) as [u [m1 l1]] eqn:E1. destruct (node_updates ts (m1, l1)) as [us1 [m2 l2]] eqn:E2.
    injection E as <- <- <-. destruct (node_update_spec _ _ _ _ _ _ E1) as (X1 & G1 & S1).
    destruct (IH _ _ _ _ _ E2) as (X2 & S2 & B2 & A2).
    split; [eapply extends_trans; eauto|]. split; [auto|]. split.
    + intros b. cbn. rewrite B2. split.
      * intros [<-|(v & I & G)]; [exists t; auto|exists v; auto].
      * intros (v & [<-|I] & G); [left; apply X2 in G1; congruence|right; exists v; auto].
    + intros v [<-|I]; [exists u; apply X2; exact G1|apply A2; exact I].
Qed.

Lemma edge_put (g : graph) s vs a b :
  NoDup (keys g) -> (edge (put s vs g) a b <-> (a = s /\ In b vs) \/ (a <> s /\ edge g a b)).
Proof.
  intros N. rewrite edge_get by (apply NoDup_keys_put; exact N). rewrite edge_get by exact N. rewrite get_put.
  destruct (dec a s) as [->|D]; split.
  - intros (ws & E & I). injection E as <-. auto.
  - intros [[_ I]|[F _]]; [exists vs; auto|congruence].
  - intros (ws & E & I). right. split; [exact D|]. exists ws. auto.
  - intros [[F _]|[_ (ws & E & I)]]; [congruence|exists ws; auto].
Qed.

Lemma compact_pass_spec g : forall acc m l g' m' l',
  NoDup (keys acc) -> (forall a, ~ edge acc a a) ->
  compact_pass g acc (m, l) = (g', (m', l')) ->
  extends m m' /\ (sound m -> sound m') /\ NoDup (keys g') /\ (forall a, ~ edge g' a a) /\
  (forall a b, edge g' a b <-> edge acc a b \/ (a <> b /\ exists u v, edge g u v /\ get u m' = Some a /\ get v m' = Some b)) /\
  (forall a, In a (keys g') <-> In a (keys acc) \/ exists u, In u (keys g) /\ get u m' = Some a) /\
  (forall u v, In u (keys g) \/ edge g u v -> exists a, get u m' = Some a) /\
  (forall u v, edge g u v -> exists b, get v m' = Some b).
Proof.
  induction g as [|[t conns] g IH]; intros acc m l g' m' l' N NS E; cbn [compact_pass] in E.
  - injection E as <- <- <-. split; [apply extends_refl|]. split; [auto|]. split; [exact N|]. split; [exact NS|].
    split; [|split; [|split]].
    + intros a b. split; [auto|]. intros [K|(_ & u & v & (vs & [] & _) & _)]. exact K.
    + intros a. split; [auto|]. intros [K|(u & [] & _)]. exact K.
    + intros u v [[]|(vs & [] & _)].
    + intros u v (vs & [] & _).
  - destruct (node_update t (m, l)) as [s [m1 l1]] eqn:E1.
    destruct (node_updates conns (m1, l1)) as [ts [m2 l2]] eqn:E2.
    destruct (node_update_spec _ _ _ _ _ _ E1) as (X1 & G1 & S1).
    destruct (node_updates_spec _ _ _ _ _ _ E2) as (X2 & S2 & B2 & A2).
    set (vs := sdel s (union (getd s [] acc) ts)) in E.
    assert (HV : forall b, In b vs <-> b <> s /\ (edge acc s b \/ In b ts)).
    { intros b. unfold vs. rewrite In_sdel, In_union. rewrite edge_get by exact N. unfold getd.
      destruct (get s acc) as [ws|]; split; intros [D [I|I]]; (split; [auto|]).
      - left. exists ws. auto.
      - auto.
      - destruct I as (ws' & Ew & I). injection Ew as <-. auto.
      - auto.
      - destruct I.
      - auto.
      - destruct I as (ws' & Ew & I). discriminate.
      - auto. }
    assert (N1 : NoDup (keys (put s vs acc))) by (apply NoDup_keys_put; exact N).
    assert (NS1 : forall a, ~ edge (put s vs acc) a a).
    { intros a K. apply edge_put in K; [|exact N]. destruct K as [[-> K]|[_ K]]; [apply HV in K; destruct K; congruence|exact (NS a K)]. }
    destruct (IH _ _ _ _ _ _ N1 NS1 E) as (X3 & S3 & N3 & NS3 & E3 & K3 & D3 & D4).
    assert (Gt : get t m' = Some s) by (apply X3, X2, G1).
    split; [eauto using extends_trans|]. split; [auto|]. split; [exact N3|]. split; [exact NS3|].
    assert (Tb : forall b, In b ts <-> exists v, In v conns /\ get v m' = Some b).
    { intros b. rewrite B2. split.
      - intros (v & I & G). exists v. split; [exact I|apply X3; exact G].
      - intros (v & I & G). exists v. split; [exact I|]. destruct (A2 v I) as [b' G']. rewrite G'.
        apply X3 in G'. congruence. }
    split; [|split; [|split]].
    + intros a b. rewrite E3, edge_put by exact N. rewrite HV, Tb. split.
      * intros [[[-> [D [K|(v & I & G)]]]|[D K]]|(D & u & v & Euv & Ga & Gb)]; auto.
        -- right. split; [congruence|]. exists t, v. split; [exists conns; split; [left; reflexivity|exact I]|]. auto.
        -- right. split; [exact D|]. exists u, v. destruct Euv as (ws & I & J). split; [exists ws; split; [right; exact I|exact J]|]. auto.
      * intros [K|(D & u & v & (ws & [I|I] & J) & Ga & Gb)].
        -- left. destruct (dec a s) as [->|Da]; [left|right; auto]. split; [reflexivity|]. split; [|auto].
           intros ->. exact (NS s K).
        -- injection I as <- <-. rewrite Gt in Ga. injection Ga as <-. left. left. split; [reflexivity|]. split; [congruence|].
           right. exists v. auto.
        -- right. split; [exact D|]. exists u, v. split; [exists ws; auto|auto].
    + intros a. rewrite K3, keys_put. cbn. split.
      * intros [[->|K]|(u & I & G)]; auto; right; [exists t; auto|exists u; auto].
      * intros [K|(u & [<-|I] & G)]; auto; [left; left; congruence|right; exists u; auto].
    + intros u v [[<-|I]|(ws & [I|I] & J)]; [exists s; exact Gt|eapply D3; left; exact I| |].
      * injection I as <- <-. exists s. exact Gt.
      * eapply (D3 u v). right. exists ws. auto.
    + intros u v (ws & [I|I] & J).
      * injection I as <- <-. destruct (A2 v J) as [b G]. exists b. apply X3. exact G.
      * apply (D4 u v). exists ws. auto.
      Unshelve. exact t.
Qed.

End Proofs.

(** ** Heights *)

Definition below {S : Type} (t : list S) (k : nat) (u : list S) : Prop := exists w, u = t ++ w /\ length w = k.

Definition topics {S : Type} (g : list (list S * list (list S))) : list (list S) :=
  flat_map (fun e => fst e :: snd e) g.

Section Heights.
Context {S : Type} `{Dec S}.
Notation topic := (list S).
Notation graph := (list (topic * list topic)).
Notation memo := (list (topic * topic)).
Notation levels := (list (topic * nat)).

Lemma getd_put (l : levels) t u n : getd t 0 (put u n l) = if dec t u then n else getd t 0 l.
Proof. unfold getd. rewrite get_put. destruct (dec t u); reflexivity. Qed.

Lemma below_refl (t : topic) : below t 0 t.
Proof. exists []. rewrite app_nil_r. auto. Qed.

Lemma below_0 (t u : topic) : below t 0 u -> u = t.
Proof. intros (w & -> & E). destruct w; [apply app_nil_r|discriminate]. Qed.

Lemma below_parent (t u : topic) k : t <> [] -> below t k u -> below (parent t) (k + 1) u.
Proof.
  intros Nt (w & -> & <-). destruct (exists_last Nt) as (t' & x & ->). unfold parent. rewrite removelast_last.
  exists (x :: w). rewrite <- app_assoc. split; [reflexivity|]. cbn. lia.
Qed.

Lemma below_of_parent (t u : topic) k : below t (1 + k) u -> below t k (parent u).
Proof.
  intros (w & -> & E). assert (Nw : w <> []) by (intros ->; discriminate). destruct (exists_last Nw) as (w' & x & ->).
  unfold parent. rewrite app_assoc, removelast_last. exists w'. split; [reflexivity|]. rewrite app_length in E. cbn in E. lia.
Qed.

Lemma below_to_parent (t u : topic) k : u <> [] -> below t k (parent u) -> below t (1 + k) u.
Proof.
  intros Nu (w & E & L). destruct (exists_last Nu) as (u' & x & ->). unfold parent in E. rewrite removelast_last in E. subst u'.
  exists (w ++ [x]). rewrite app_assoc. split; [reflexivity|]. rewrite app_length. cbn. lia.
Qed.

Lemma update_level_spec n : forall d (u : topic) (l : levels) t, length u <= n ->
  (forall k, t <> [] -> below t k u -> d + k <= getd t 0 (update_level n d u l)) /\
  (getd t 0 (update_level n d u l) = getd t 0 l \/
   (t <> [] /\ exists k, below t k u /\ getd t 0 (update_level n d u l) = d + k)) /\
  getd t 0 l <= getd t 0 (update_level n d u l).
Proof.
  induction n as [|n IH]; intros d u l t Ln.
  - destruct u; [|cbn in Ln; lia]. cbn [update_level]. split; [|auto].
    intros k Nt (w & E & _). symmetry in E. apply app_eq_nil in E. destruct E. contradiction.
  - destruct u as [|x u0] eqn:Eu.
    { cbn [update_level]. split; [|auto]. intros k Nt (w & E & _). symmetry in E. apply app_eq_nil in E. destruct E. contradiction. }
    rewrite <- Eu in *. assert (Nu : u <> []) by (rewrite Eu; discriminate).
    assert (EL : update_level (Datatypes.S n) d u l = update_level n (Datatypes.S d) (parent u) (put u (Nat.max (getd u 0 l) d) l)).
    { rewrite Eu. reflexivity. }
    rewrite EL. clear EL Eu x u0. set (l1 := put u (Nat.max (getd u 0 l) d) l).
    assert (Lp : length (parent u) <= n).
    { destruct (exists_last Nu) as (u' & x & ->). unfold parent. rewrite removelast_last. rewrite app_length in Ln. cbn in Ln. lia. }
    destruct (IH (Datatypes.S d) (parent u) l1 t Lp) as (A & B & C).
    assert (L1 : getd t 0 l1 = if dec t u then Nat.max (getd u 0 l) d else getd t 0 l) by apply getd_put.
    split; [|split].
    + intros [|k] Nt Bt.
      * apply below_0 in Bt. subst u. destruct (dec t t) as [_|]; [|congruence]. lia.
      * specialize (A k Nt (below_of_parent _ _ _ Bt)). lia.
    + destruct B as [B|(Nt & k & Bk & Ek)].
      * rewrite B, L1. destruct (dec t u) as [->|]; [|auto].
        destruct (Nat.max_spec (getd u 0 l) d) as [[_ ->]|[_ ->]]; [|auto].
        right. split; [exact Nu|]. exists 0. split; [apply below_refl|lia].
      * right. split; [exact Nt|]. exists (1 + k). split; [apply below_to_parent; auto|lia].
    + rewrite L1 in C. destruct (dec t u) as [->|]; lia.
Qed.

Lemma levels_spec us : forall (l : levels) t,
  let r := getd t 0 (fold_left (fun l t => update_level (length t) 0 t l) us l) in
  (forall u k, In u us -> t <> [] -> below t k u -> k <= r) /\
  (r = getd t 0 l \/ exists u k, In u us /\ below t k u /\ r = k) /\
  getd t 0 l <= r.
Proof.
  induction us as [|u us IH]; intros l t; cbn zeta; cbn [fold_left].
  - split; [intros u k []|]. auto.
  - destruct (IH (update_level (length u) 0 u l) t) as (A & B & C). cbn zeta in A, B, C.
    destruct (update_level_spec (length u) 0 u l t (le_n _)) as (A1 & B1 & C1).
    split; [|split; [|lia]].
    + intros u' k [<-|I] Nt Bt; [specialize (A1 k Nt Bt); lia|exact (A u' k I Nt Bt)].
    + destruct B as [B|(u' & k & I & Bk & E)]; [|right; exists u', k; split; [right; exact I|auto]].
      destruct B1 as [B1|(_ & k & Bk & E)]; [left; congruence|right; exists u, k; split; [left; reflexivity|]]. split; [exact Bk|].
      rewrite B, E. lia.
Qed.

Variable g0 : graph.
Notation H0 := (fun t => getd t 0 (pipeline_levels g0)).

Lemma level_bounds t u k : t <> [] -> In u (topics g0) -> below t k u -> k <= H0 t.
Proof.
  intros Nt I B. destruct (levels_spec (topics g0) [] t) as (A & _). exact (A u k I Nt B).
Qed.

Lemma level_reached t : H0 t = 0 \/ exists u, In u (topics g0) /\ below t (H0 t) u.
Proof.
  destruct (levels_spec (topics g0) [] t) as (_ & B & _). cbn zeta in B.
  fold (pipeline_levels g0) in B. unfold topics in B. fold (pipeline_levels g0) in B.
  destruct B as [B|(u & k & I & Bk & E)]; [left; exact B|right]. exists u. split; [exact I|]. cbn beta. rewrite <- E in Bk. exact Bk.
Qed.

(** A component with a topic of the graph below it. *)
Definition inhabited (t : topic) : Prop := t <> [] /\ exists u k, In u (topics g0) /\ below t k u.

Lemma inhabited_parent t : inhabited t -> parent t <> [] -> inhabited (parent t).
Proof.
  intros (Nt & u & k & I & B) Np. split; [exact Np|]. exists u, (k + 1). split; [exact I|]. apply below_parent; assumption.
Qed.

Lemma level_parent t : inhabited t -> parent t <> [] -> H0 t + 1 <= H0 (parent t).
Proof.
  intros (Nt & u & k & I & B) Np. destruct (level_reached t) as [E|(u' & I' & B')].
  - cbn beta in E. pose proof (level_bounds t u k Nt I B) as Lk. cbn beta in Lk.
    pose proof (level_bounds (parent t) u (k + 1) Np I (below_parent _ _ _ Nt B)) as Lp. cbn beta in Lp. lia.
  - exact (level_bounds (parent t) u' _ Np I' (below_parent _ _ _ Nt B')).
Qed.

Definition even : Prop := forall t, inhabited t -> parent t <> [] -> H0 (parent t) = H0 t + 1.

Definition Inv (k : nat) (N : topic -> Prop) (l : levels) : Prop :=
  (forall a, N a -> inhabited a /\ H0 a <= k /\
                    (parent a <> [] -> getd a 0 l = k /\ k + 1 <= H0 (parent a) /\ (even -> H0 a = k))) /\
  (forall t, k + 1 <= H0 t -> getd t 0 l = H0 t).

(** Within a pass: a node is mapped as [target] says, and only levels of visited nodes change. *)
Definition target (k : nat) (a : topic) : topic :=
  match parent a with [] => a | p => if H0 p =? k + 1 then p else a end.

Definition PassInv (k : nat) (N : topic -> Prop) (st : memo * levels) : Prop :=
  (forall a u, get a (fst st) = Some u -> N a /\ u = target k a) /\
  (forall a, N a -> parent a <> [] -> get a (fst st) = None -> getd a 0 (snd st) = k) /\
  (forall a, N a -> parent a <> [] -> get a (fst st) = Some a -> getd a 0 (snd st) = k + (k + 1)) /\
  (forall t, k + 1 <= H0 t -> getd t 0 (snd st) = H0 t).

Lemma node_update_pass k (N : topic -> Prop) l0 st a u st' :
  Inv k N l0 -> PassInv k N st -> N a -> node_update a st = (u, st') ->
  u = target k a /\ PassInv k N st'.
Proof.
  intros (I1 & _) (P1 & P2 & P3 & P4) Na E. destruct st as [m l]. cbn [fst snd] in *. unfold node_update in E.
  destruct (get a m) as [u0|] eqn:G.
  { injection E as <- <-. split; [apply (P1 a u0 G)|]. exact (conj P1 (conj P2 (conj P3 P4))). }
  destruct (I1 a Na) as (_ & Ha & Ia). unfold target.
  assert (PN : forall v (l' : levels), v = target k a -> (forall t, t <> a -> getd t 0 l' = getd t 0 l) ->
               (v = a -> parent a <> [] -> getd a 0 l' = k + (k + 1)) -> PassInv k N (put a v m, l')).
  { intros v l' Ev Fl Sl. split; [|split; [|split]]; cbn [fst snd].
    - intros b w Gb. rewrite get_put in Gb. destruct (dec b a) as [->|]; [injection Gb as <-; auto|apply P1; exact Gb].
    - intros b Nb Npb Gb. rewrite get_put in Gb. destruct (dec b a) as [->|D]; [discriminate|]. rewrite Fl by exact D. apply P2; assumption.
    - intros b Nb Npb Gb. rewrite get_put in Gb. destruct (dec b a) as [->|D]; [injection Gb as ->; auto|].
      rewrite Fl by exact D. apply P3; assumption.
    - intros t Ht. rewrite Fl; [apply P4; exact Ht|]. intros ->. lia. }
  unfold target in PN. destruct (parent a) as [|x p] eqn:Ep.
  { injection E as <- <-. split; [reflexivity|]. apply PN; auto. intros _ F. contradiction. }
  assert (Np : x :: p <> []) by discriminate. destruct (Ia Np) as (_ & Hp & _).
  assert (La : getd a 0 l = k) by (apply P2; auto; rewrite Ep; exact Np).
  assert (Lp : getd (x :: p) 0 l = H0 (x :: p)) by (apply P4; exact Hp).
  rewrite La, Lp in E. cbn beta in *. destruct (H0 (x :: p) =? k + 1) eqn:Q.
  - cbn beta in Q. rewrite Q in *. injection E as <- <-. split; [reflexivity|]. apply PN; auto.
    intros F _. exfalso. assert (Fl : length (parent a) = length a) by (rewrite Ep, F; reflexivity).
    unfold parent in Fl. destruct a as [|y a]; [cbn in Ep; discriminate|]. rewrite removelast_firstn_len in Fl. rewrite firstn_length in Fl. cbn in Fl. lia.
  - cbn beta in Q. rewrite Q in *. injection E as <- <-. split; [reflexivity|]. apply PN; auto.
    + intros t D. rewrite getd_put. destruct (dec t a); [contradiction|reflexivity].
    + intros _ _. rewrite getd_put. destruct (dec a a); [reflexivity|congruence].
Qed.

Lemma node_updates_pass k (N : topic -> Prop) l0 ts : forall st us st',
  Inv k N l0 -> PassInv k N st -> (forall a, In a ts -> N a) -> node_updates ts st = (us, st') ->
  PassInv k N st' /\ forall b, In b us -> exists a, In a ts /\ b = target k a.
Proof.
  induction ts as [|t ts IH]; intros st us st' I P Nt E; cbn [node_updates] in E.
  - injection E as <- <-. split; [exact P|intros b []].
  - destruct (node_update t st) as [u st1] eqn:E1. destruct (node_updates ts st1) as [us1 st2] eqn:E2. injection E as <- <-.
    destruct (node_update_pass k N l0 st t u st1 I P (Nt t (or_introl eq_refl)) E1) as (-> & P1).
    destruct (IH _ _ _ I P1 (fun a Ia => Nt a (or_intror Ia)) E2) as (P2 & B).
    split; [exact P2|]. intros b [<-|Ib]; [exists t; cbn; auto|]. destruct (B b Ib) as (a & Ia & ->). exists a. cbn. auto.
Qed.

Lemma compact_pass_pass k (N : topic -> Prop) l0 g : forall acc st g' st',
  Inv k N l0 -> PassInv k N st -> (forall a, In a (topics g) -> N a) -> NoDup (keys acc) ->
  (forall b, In b (topics acc) -> exists a, N a /\ get a (fst st) = Some b) ->
  compact_pass g acc st = (g', st') ->
  PassInv k N st' /\ (forall b, In b (topics g') -> exists a, N a /\ get a (fst st') = Some b).
Proof.
  induction g as [|[t conns] g IH]; intros acc st g' st' I P Ng Na A E; cbn [compact_pass] in E.
  - injection E as <- <-. auto.
  - destruct (node_update t st) as [s [m1 l1]] eqn:E1. destruct (node_updates conns (m1, l1)) as [ts [m2 l2]] eqn:E2.
    assert (Nt : N t) by (apply Ng; cbn; auto).
    assert (Nc : forall a, In a conns -> N a) by (intros a Ia; apply Ng; cbn; right; apply in_or_app; auto).
    destruct (node_update_pass _ _ _ _ _ _ _ I P Nt E1) as (_ & P1).
    destruct (node_updates_pass _ _ _ _ _ _ _ I P1 Nc E2) as (P2 & _).
    destruct st as [m l]. destruct (node_update_spec _ _ _ _ _ _ E1) as (X1 & G1 & _).
    destruct (node_updates_spec _ _ _ _ _ _ E2) as (X2 & _ & B2 & _). cbn [fst] in *.
    apply (IH _ _ _ _ I P2) in E; [exact E| | |].
    + intros a Ia. apply Ng. cbn. right. apply in_or_app. auto.
    + apply NoDup_keys_put. exact Na.
    + cbn [fst]. intros b Ib. unfold topics in Ib. apply in_flat_map in Ib. destruct Ib as ([u vs] & Iuv & Ib). cbn [fst snd] in Ib.
      assert (AA : forall b, In b (topics acc) -> exists a, N a /\ get a m2 = Some b).
      { intros c Ic. destruct (A c Ic) as (a & Naa & Ga). exists a. split; [exact Naa|]. apply X2, X1. exact Ga. }
      assert (Gu : get u (put s (sdel s (union (getd s [] acc) ts)) acc) = Some vs) by (apply In_get; [apply NoDup_keys_put; exact Na|exact Iuv]).
      rewrite get_put in Gu. destruct (dec u s) as [->|D].
      * injection Gu as <-. destruct Ib as [<-|Ib]; [exists t; split; [exact Nt|apply X2; exact G1]|].
        apply In_sdel in Ib. destruct Ib as [_ Ib]. apply In_union in Ib. destruct Ib as [Ib|Ib].
        -- apply AA. unfold getd in Ib. destruct (get s acc) as [ws|] eqn:Gs; [|destruct Ib]. apply in_flat_map.
           exists (s, ws). split; [apply get_In; exact Gs|right; exact Ib].
        -- apply B2 in Ib. destruct Ib as (v & Iv & Gv). exists v. auto.
      * apply AA. apply in_flat_map. exists (u, vs). split; [apply get_In; exact Gu|exact Ib].
Qed.

(** One pass, from level k to level k + 1. *)
Lemma pass_level k g l g' m' l' :
  Inv k (fun a => In a (topics g)) l -> compact_pass g [] ([], l) = (g', (m', l')) ->
  (forall b, In b (topics g') -> parent b <> [] -> k + 2 <= H0 (parent b)) /\
  (k = 0 \/ even -> Inv (k + 1) (fun a => In a (topics g')) l').
Proof.
  intros I E. assert (I' := I). destruct I' as (I1 & I2).
  assert (P0 : PassInv k (fun a => In a (topics g)) ([], l)).
  { split; [|split; [|split]]; cbn [fst snd].
    - intros a u G. discriminate.
    - intros a Na Np _. apply (I1 a Na). exact Np.
    - intros a Na Np G. discriminate.
    - exact I2. }
  destruct (compact_pass_pass k _ l g [] _ _ _ I P0 (fun a Ia => Ia) (NoDup_nil _) (fun b Ib => match Ib with end) E) as ((P1 & P2 & P3 & P4) & B).
  cbn [fst snd] in *.
  assert (Cl : forall b, In b (topics g') ->
            (inhabited b /\ H0 b = k + 1) \/
            (In b (topics g) /\ get b m' = Some b /\ (parent b <> [] -> k + 2 <= H0 (parent b)))).
  { intros b Ib. destruct (B b Ib) as (a & Na & Ga). destruct (P1 a b Ga) as (_ & ->). unfold target in *.
    destruct (I1 a Na) as (Ja & Ha & Ka). destruct (parent a) as [|x p] eqn:Ep.
    - right. split; [exact Na|]. split; [exact Ga|]. intros F. contradiction.
    - assert (Np : x :: p <> []) by discriminate. destruct (Ka Np) as (_ & Hp & _).
      cbn beta in *. destruct (getd (x :: p) 0 (pipeline_levels g0) =? k + 1) eqn:Q.
      + left. apply Nat.eqb_eq in Q. split; [|exact Q]. rewrite <- Ep. apply inhabited_parent; [exact Ja|rewrite Ep; exact Np].
      + right. apply Nat.eqb_neq in Q. split; [exact Na|]. split; [exact Ga|]. intros _. rewrite Ep. cbn beta in *. lia. }
  split.
  - intros b Ib Np. destruct (Cl b Ib) as [(J & Hb)|(_ & _ & K)]; [|exact (K Np)].
    pose proof (level_parent b J Np). cbn beta in *. lia.
  - intros Ke. split.
    + intros b Ib. destruct (Cl b Ib) as [(J & Hb)|(Nb & Gb & K)].
      * split; [exact J|]. split; [lia|]. intros Np. split; [rewrite P4; lia|]. pose proof (level_parent b J Np). cbn beta in *. split; [lia|auto].
      * destruct (I1 b Nb) as (J & Hb & Kb). split; [exact J|]. split; [lia|]. intros Np. specialize (K Np).
        destruct (Kb Np) as (_ & _ & Ev).
        assert (Nev : even -> False). { intros EV. specialize (Ev EV). specialize (EV b J Np). cbn beta in *. lia. }
        destruct Ke as [->|EV]; [|destruct (Nev EV)].
        split; [rewrite (P3 b Nb Np Gb); reflexivity|]. split; [lia|]. intros EV. destruct (Nev EV).
    + intros t Ht. apply P4. lia.
Qed.

Lemma compact_levels n : forall k g l,
  Inv k (fun a => In a (topics g)) l -> 1 <= n -> (k + n <= 2 \/ even) ->
  forall b, In b (topics (compact n g l)) -> parent b <> [] -> k + n + 1 <= H0 (parent b).
Proof.
  induction n as [|n IH]; intros k g l I Ln Q b Ib Np; [lia|].
  cbn [compact] in Ib. destruct (compact_pass g [] ([], l)) as [g' [m' l']] eqn:E. cbn [snd] in Ib.
  destruct (pass_level k g l g' m' l' I E) as (A & B).
  destruct n as [|n]; [specialize (A b Ib Np); lia|].
  assert (I' : Inv (k + 1) (fun a => In a (topics g')) l') by (apply B; destruct Q; [left; lia|auto]).
  assert (Q' : k + 1 + Datatypes.S n <= 2 \/ even) by (destruct Q; [left; lia|auto]).
  assert (L : 1 <= Datatypes.S n) by lia.
  specialize (IH (k + 1) g' l' I' L Q' b Ib Np). cbn beta in IH. lia.
Qed.

Lemma Inv_start lv :
  (forall t, In t (topics g0) -> t <> []) -> validate g0 = Some lv -> Inv 0 (fun a => In a (topics g0)) lv.
Proof.
  intros Ne V. unfold validate in V. destruct (forallb _ _) eqn:F; [|discriminate]. injection V as <-.
  assert (Z : forall t, In t (topics g0) -> H0 t = 0).
  { intros t It. rewrite forallb_forall in F. specialize (F t It). apply Nat.eqb_eq in F. exact F. }
  split; [|intros t _; reflexivity].
  intros a Ia. assert (J : inhabited a) by (split; [apply Ne; exact Ia|exists a, 0; split; [exact Ia|apply below_refl]]).
  split; [exact J|]. pose proof (Z a Ia) as Za. cbn beta in *. split; [lia|]. intros Np. split; [exact Za|].
  split; [|auto]. pose proof (level_parent a J Np). cbn beta in *. lia.
Qed.

End Heights.

(** A topic and the components it is in. *)
Inductive within {S : Type} : list S -> list S -> Prop :=
| within_refl t : within t t
| within_parent t u : removelast t <> [] -> within (removelast t) u -> within t u.

(** C63.  The compactified graph is the original with each topic replaced by itself or by a
    component it is in: its topics are the replacements, and two of them are connected exactly
    if they replace two connected topics and differ. *)
Theorem C63_compactification_is_a_quotient :
  forall (S : Type) (D : Dec S) (g g' : list (list S * list (list S))) n,
    NoDup (keys g) -> (forall t, ~ edge g t t) -> closed g ->
    get_compactified_graph g n = Some g' ->
    exists f : list S -> list S,
      (forall t, within t (f t)) /\
      (forall a, In a (keys g') <-> exists t, In t (keys g) /\ f t = a) /\
      (forall a b, edge g' a b <-> a <> b /\ exists u v, edge g u v /\ f u = a /\ f v = b).
Proof.
  intros S D g g' n N NS C E.
  assert (Id : exists f : list S -> list S,
      (forall t, within t (f t)) /\
      (forall a, In a (keys g) <-> exists t, In t (keys g) /\ f t = a) /\
      (forall a b, edge g a b <-> a <> b /\ exists u v, edge g u v /\ f u = a /\ f v = b)).
  { exists (fun t => t). split; [constructor|]. split.
    - intros a. split; [intros I; exists a; auto|intros (t & I & <-); exact I].
    - intros a b. split; [intros K; split; [intros ->; exact (NS b K)|exists a, b; auto]|].
      intros (_ & u & v & K & <- & <-). exact K. }
  unfold get_compactified_graph in E. destruct n as [|n]; [injection E as <-; exact Id|].
  destruct g as [|e g0]; [injection E as <-; exact Id|].
  destruct (validate (e :: g0)) as [lv|]; [|discriminate].
  assert (Eg' : g' = compact (Datatypes.S n) (e :: g0) lv) by congruence. rewrite Eg'. clear Id E Eg' g'.
  remember (e :: g0) as g eqn:Eg. clear Eg e g0. remember (Datatypes.S n) as k eqn:Ek. clear n Ek.
  revert g lv N NS C. induction k as [|k IH]; intros g lv N NS C.
  - cbn [compact]. exists (fun t => t). split; [constructor|]. split.
    + intros a. split; [intros I; exists a; auto|intros (t & I & <-); exact I].
    + intros a b. split; [intros K; split; [intros ->; exact (NS b K)|exists a, b; auto]|].
      intros (_ & u & v & K & <- & <-). exact K.
  - cbn [compact]. destruct (compact_pass g [] ([], lv)) as [g1 [m l]] eqn:Ep.
    destruct (compact_pass_spec g [] [] lv g1 m l) as (_ & So & N1 & NS1 & E1 & K1 & D1 & D2).
    { constructor. } { intros a (vs & [] & _). } { exact Ep. }
    assert (So' : sound m) by (apply So; intros t u G; discriminate).
    assert (C1 : closed g1).
    { intros a b K. apply E1 in K. destruct K as [(vs & [] & _)|(_ & u & v & K & Ga & Gb)].
      apply K1. right. exists v. split; [exact (C u v K)|exact Gb]. }
    destruct (IH g1 l N1 NS1 C1) as (f & F1 & F2 & F3).
    set (h := fun t => match get t m with Some u => u | None => t end).
    exists (fun t => f (h t)). split; [|split].
    + intros t. unfold h. destruct (get t m) as [u|] eqn:G; [|apply F1].
      destruct (So' _ _ G) as [->|[-> Np]]; [apply F1|]. apply within_parent; [exact Np|apply F1].
    + intros a. cbn [snd]. rewrite F2. split.
      * intros (t & I & <-). apply K1 in I. destruct I as [[]|(u & I & G)]. exists u. unfold h. rewrite G. auto.
      * intros (t & I & <-). destruct (D1 t t (or_introl I)) as [u G]. exists u. unfold h. rewrite G. split; [|reflexivity].
        apply K1. right. exists t. auto.
    + intros a b. cbn [snd]. rewrite F3. split.
      * intros (Nab & u & v & K & <- & <-). split; [exact Nab|]. apply E1 in K. destruct K as [(vs & [] & _)|(_ & u' & v' & K & Gu & Gv)].
        exists u', v'. unfold h. rewrite Gu, Gv. auto.
      * intros (Nab & u & v & K & <- & <-). split; [exact Nab|].
        destruct (D1 u v (or_intror K)) as [u' Gu]. destruct (D2 u v K) as [v' Gv].
        exists u', v'. unfold h in *. rewrite Gu, Gv in *. split; [|auto]. apply E1. right.
        split; [intros ->; apply Nab; reflexivity|]. exists u, v. auto.
Qed.
Print Assumptions C63_compactification_is_a_quotient.

(** A system R holding a unit U and a collection C with units V, W:
    R/U/out -> R/C/V/in, R/C/V/out -> R/C/W/in. *)
Definition R := 0. Definition U := 1. Definition C := 2. Definition V := 3. Definition W := 4.
Definition inp := 10. Definition out := 11.
Definition system : list (list nat * list (list nat)) :=
  [([R; U; out], [[R; C; V; inp]]); ([R; C; V; out], [[R; C; W; inp]]); ([R; C; V; inp], []); ([R; C; W; inp], [])].

Example C63_case :
  NoDup (keys system) /\ (forall t, ~ edge system t t) /\ closed system /\
  get_compactified_graph system 1 = Some [([R; U], [[R; C; V]]); ([R; C; V], [[R; C; W]]); ([R; C; W], [])] /\
  get_compactified_graph system 2 = Some [([R; U], [[R; C]]); ([R; C], [])] /\
  (forall t, In t (keys system) -> t <> []).
Proof.
  split; [repeat constructor; cbn; intuition discriminate|]. split; [|split; [|split; [reflexivity|split; [reflexivity|cbn; intuition (subst; discriminate)]]]].
  - intros t (vs & I & J).
    repeat (destruct I as [I|I]; [injection I as <- <-; repeat (destruct J as [J|J]; [discriminate|]); destruct J|]). destruct I.
  - intros u v (vs & I & J).
    repeat (destruct I as [I|I]; [injection I as <- <-; repeat (destruct J as [<-|J]; [cbn; tauto|]); destruct J|]). destruct I.
Qed.

(** The height of a component: how far below it the deepest topic of the graph is. *)
Definition height_at_most {S : Type} (g : list (list S * list (list S))) (t : list S) (n : nat) : Prop :=
  forall u k, In u (keys g) -> below t k u -> k <= n.

Definition height {S : Type} (g : list (list S * list (list S))) (t : list S) (n : nat) : Prop :=
  (exists u, In u (keys g) /\ below t n u) /\ height_at_most g t n.

(** Every component of a component is one level lower than it. *)
Definition uniform {S : Type} (g : list (list S * list (list S))) : Prop :=
  forall t n, t <> [] -> removelast t <> [] -> height g t n -> height g (removelast t) (n + 1).

(** C63.  Compactifying to level n leaves no topic inside a component of height at most n, if n is
    1 or 2 or the graph is uniform. *)
Theorem C63_low_components_are_merged_partial :
  forall (S : Type) (D : Dec S) (g g' : list (list S * list (list S))) n,
    closed g -> (forall t, In t (keys g) -> t <> []) ->
    1 <= n -> n <= 2 \/ uniform g ->
    get_compactified_graph g n = Some g' ->
    forall t, In t (keys g') -> removelast t <> [] -> ~ height_at_most g (removelast t) n.
Proof.
  intros S D g g' n C Ne Ln Q E t It Np Hm.
  destruct g as [|e g1]; [destruct n; injection E as <-; destruct It|]. remember (e :: g1) as g eqn:Eg.
  assert (Tk : forall u, In u (topics g) <-> In u (keys g)).
  { intros u. unfold topics. rewrite in_flat_map. split.
    - intros ([a vs] & I & [<-|J]); [apply (in_map fst) in I; exact I|]. apply (C a u). exists vs. auto.
    - intros I. unfold keys in I. apply in_map_iff in I. destruct I as ([a vs] & <- & I). exists (a, vs). cbn. auto. }
  assert (NeT : forall u, In u (topics g) -> u <> []) by (intros u Iu; apply Ne, Tk, Iu).
  assert (V : exists lv, validate g = Some lv /\ g' = compact n g lv).
  { unfold get_compactified_graph in E. destruct n as [|n]; [lia|]. rewrite Eg in E |- *.
    destruct (validate (e :: g1)) as [lv|]; [exists lv; split; [reflexivity|congruence]|discriminate]. }
  destruct V as (lv & V & Eg'). pose proof (Inv_start g lv NeT V) as I0.
  assert (HH : forall a, inhabited g a -> height g a (getd a 0 (pipeline_levels g))).
  { intros a (Na & u & k & Iu & B). split.
    - destruct (level_reached g a) as [Z|(u' & Iu' & B')]; [|exists u'; rewrite <- Tk; auto].
      cbn beta in Z. rewrite Z. pose proof (level_bounds g a u k Na Iu B) as Lk. cbn beta in Lk. exists u. rewrite <- Tk. split; [exact Iu|].
      replace 0 with k by lia. exact B.
    - intros v j Iv Bv. apply (level_bounds g a v j Na); [apply Tk; exact Iv|exact Bv]. }
  assert (Qe : 0 + n <= 2 \/ even g).
  { destruct Q as [Q|Q]; [left; exact Q|right]. intros a Ja Npa. cbn beta.
    pose proof (Q a _ (proj1 Ja) Npa (HH a Ja)) as ((u & Iu & Bu) & Hu).
    pose proof (level_bounds g (parent a) u _ Npa (proj2 (Tk u) Iu) Bu) as L1. cbn beta in L1.
    destruct (HH (parent a) (inhabited_parent g a Ja Npa)) as ((u' & Iu' & Bu') & _).
    specialize (Hu u' _ Iu' Bu'). unfold parent in *. lia. }
  assert (It' : In t (topics (compact n g lv))).
  { rewrite <- Eg'. unfold topics. apply in_flat_map. unfold keys in It. apply in_map_iff in It.
    destruct It as ([a vs] & <- & I). exists (a, vs). cbn. auto. }
  pose proof (compact_levels g n 0 g lv I0 Ln Qe t It' Np) as L. cbn beta in L.
  destruct (level_reached g (parent t)) as [Z|(u & Iu & B)]; cbn beta in *; [lia|].
  specialize (Hm u _ (proj1 (Tk u) Iu) B). lia.
Qed.
Print Assumptions C63_low_components_are_merged_partial.

(** C63.  Compactifying to level n should merge everything inside a component of height at most n.
    It does not: R, of height 3, is merged from R/C/V and R/C/W at level 3, but R/U stays beside it
    (line 142 adds level + 1 to the level instead of 1, so R/U jumps over the level of its
    siblings). *)
Theorem C63_shallow_unit_is_left_over_refuted :
  exists g' : list (list nat * list (list nat)),
    get_compactified_graph system 3 = Some g' /\
    height_at_most system [R] 3 /\
    In [R] (keys g') /\ In [R; U] (keys g').
Proof.
  exists [([R; U], [[R]]); ([R], [])]. split; [reflexivity|]. split; [|cbn; auto].
  intros u k I (w & -> & <-). unfold system, keys in I. cbn [map fst] in I.
  repeat (destruct I as [I|I]; [injection I as I; subst w; cbn; lia|]). destruct I.
Qed.
Print Assumptions C63_shallow_unit_is_left_over_refuted.
