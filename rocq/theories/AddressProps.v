(* C47: port allocation is safe.  C48: addresses print and parse back. *)

From Coq Require Import List NArith ZArith Arith Bool Lia DecimalPos DecimalZ.
From Verif Require Import CodecModel CodecProofs StreamModel StreamProofs AddressModel.
Import ListNotations.

(** ** Decimal digits *)

Definition digit_char (c : N) : Prop := (48 <= c <= 57)%N.

Lemma uint_chars_digits d c : In c (uint_chars d) -> digit_char c.
Proof.
  unfold digit_char.
  induction d; cbn [uint_chars In]; [intros []|..]; (intros [<-|I]; [lia|auto]).
Qed.

Lemma digit_true c : digit_char c -> is_digit c = true.
Proof. intros D. unfold digit_char, is_digit in *. apply andb_true_intro. split; apply N.leb_le; lia. Qed.

Lemma digits_value d : forall acc b, d <> Decimal.Nil \/ b = true ->
  digits (uint_chars d) acc b = Some (Pos.of_uint d + acc * 10 ^ Unsigned.usize d)%N.
Proof.
  induction d as [|d IH|d IH|d IH|d IH|d IH|d IH|d IH|d IH|d IH|d IH]; intros acc b H.
  { destruct H as [H| ->]; [congruence|]. cbn [uint_chars digits Unsigned.usize]. change (Pos.of_uint Decimal.Nil) with 0%N.
    rewrite N.pow_0_r. f_equal. lia. }
  all: cbn [uint_chars digits]; rewrite digit_true by (unfold digit_char; lia).
  all: rewrite IH by auto; f_equal; rewrite !Unsigned.of_uint_alt;
    match goal with |- context [Decimal.rev (?f ?x)] => change (Decimal.rev (f x)) with (Decimal.revapp x (f Decimal.Nil)) end;
    rewrite Unsigned.of_lu_revapp; cbn [Unsigned.of_lu Unsigned.usize];
    rewrite N.pow_succ_r';
    repeat match goal with |- context [(?a - 48)%N] => let v := eval vm_compute in (a - 48)%N in change (a - 48)%N with v end;
    ring.
Qed.

Lemma to_uint_not_nil p : Pos.to_uint p <> Decimal.Nil.
Proof. intros E. pose proof (Unsigned.of_to p) as F. rewrite E in F. discriminate. Qed.

Lemma digits_to_uint p : digits (uint_chars (Pos.to_uint p)) 0 false = Some (Npos p).
Proof. rewrite digits_value by (left; apply to_uint_not_nil). rewrite Unsigned.of_to. reflexivity. Qed.

Lemma lstrip_nonspace s : (forall c, In c s -> is_space c = false) -> lstrip s = s.
Proof. destruct s as [|c s]; intros H; [reflexivity|]. cbn. rewrite H by (left; reflexivity). reflexivity. Qed.

Lemma strip_nonspace s : (forall c, In c s -> is_space c = false) -> strip s = s.
Proof.
  intros H. unfold strip. rewrite (lstrip_nonspace s H). rewrite lstrip_nonspace; [apply rev_involutive|].
  intros c I. apply H. apply in_rev. exact I.
Qed.

Lemma is_space_false c : (33 <= c <= 127)%N -> is_space c = false.
Proof.
  intros H. unfold is_space. destruct (9 <=? c)%N eqn:A, (c <=? 13)%N eqn:B, (28 <=? c)%N eqn:C, (c <=? 32)%N eqn:D,
    (c =? 133)%N eqn:E, (c =? 160)%N eqn:F; cbn; try reflexivity;
  rewrite ?N.leb_le, ?N.eqb_eq in *; lia.
Qed.

Lemma str_int_chars z c : In c (str_int z) -> digit_char c \/ c = 45%N.
Proof.
  unfold str_int. destruct (Z.to_int z) as [d|d]; [intros I; left; exact (uint_chars_digits d c I)|].
  intros [<-|I]; [right; reflexivity|left; exact (uint_chars_digits d c I)].
Qed.

Lemma int_of_str_int z : int_of (str_int z) = Some z.
Proof.
  unfold int_of. rewrite strip_nonspace.
  2:{ intros c I. apply is_space_false. destruct (str_int_chars z c I) as [D| ->]; [unfold digit_char in D|]; lia. }
  unfold str_int. destruct z as [|p|p]; cbn [Z.to_int]; [reflexivity| |].
  - pose proof (digits_to_uint p) as E. pose proof (uint_chars_digits (Pos.to_uint p)) as H.
    destruct (uint_chars (Pos.to_uint p)) as [|c r]; [discriminate|].
    specialize (H c (or_introl eq_refl)). unfold digit_char in H.
    destruct (N.eqb_spec c 45) as [->|_]; [lia|]. destruct (N.eqb_spec c 43) as [->|_]; [lia|].
    rewrite E. reflexivity.
  - rewrite N.eqb_refl, digits_to_uint. reflexivity.
Qed.

(** ** Splitting at colons *)

Lemma split_no_sep sep s : ~ In sep s -> split sep s = [s].
Proof.
  induction s as [|c s IH]; intros H; [reflexivity|]. cbn [split]. destruct (N.eqb_spec c sep) as [->|D]; [destruct H; left; reflexivity|].
  rewrite IH by (intros I; apply H; right; exact I). reflexivity.
Qed.

Lemma split_app sep a b : ~ In sep a -> split sep (a ++ sep :: b) = a :: split sep b.
Proof.
  induction a as [|c a IH]; intros H; cbn [app split]; [rewrite N.eqb_refl; reflexivity|].
  destruct (N.eqb_spec c sep) as [->|D]; [destruct H; left; reflexivity|].
  rewrite IH by (intros I; apply H; right; exact I). reflexivity.
Qed.

Lemma split_not_nil sep s : split sep s <> [].
Proof. destruct s as [|c s]; cbn; [discriminate|]. destruct (c =? sep)%N; [discriminate|]. destruct (split sep s); discriminate. Qed.

Lemma split_two sep s h p : split sep s = [h; p] -> s = h ++ sep :: p /\ ~ In sep h /\ ~ In sep p.
Proof.
  revert h. induction s as [|c s IH]; intros h E; cbn [split] in E; [discriminate|].
  destruct (N.eqb_spec c sep) as [->|D].
  - injection E as <- E. assert (Hs : s = p /\ ~ In sep p).
    { clear IH. revert p E. induction s as [|c s IHs]; intros p E; cbn [split] in E; [injection E as <-; auto|].
      destruct (N.eqb_spec c sep) as [->|D]; [injection E as _ E; destruct (split_not_nil sep s E)|].
      destruct (split sep s) as [|h t] eqn:Q; [destruct (split_not_nil sep s Q)|]. injection E as <- ->.
      destruct (IHs h eq_refl) as (-> & H). split; [reflexivity|]. intros [F|F]; [congruence|exact (H F)]. }
    destruct Hs as (-> & H). auto.
  - destruct (split sep s) as [|h0 t] eqn:Q; [destruct (split_not_nil sep s Q)|]. injection E as <- ->.
    destruct (IH h0 eq_refl) as (-> & Hh & Hp). split; [reflexivity|]. split; [|exact Hp]. intros [F|F]; [congruence|exact (Hh F)].
Qed.

Lemma str_int_no_colon z : ~ In colon (str_int z).
Proof. intros I. destruct (str_int_chars z _ I) as [D|D]; [unfold digit_char, colon in D; lia|discriminate]. Qed.

(** C48.  Printing an address whose host has no colon and parsing the text gives the address. *)
Theorem C48_print_parse :
  forall host port, ~ In colon host -> from_string (str_address (host, port)) = Some (host, port).
Proof.
  intros host port H. unfold from_string, str_address. cbn [fst snd]. rewrite split_app by exact H.
  rewrite split_no_sep by apply str_int_no_colon. rewrite int_of_str_int. reflexivity.
Qed.
Print Assumptions C48_print_parse.

(** C48.  Different addresses print differently, whatever the hosts. *)
Theorem C48_print_injective : forall a b, str_address a = str_address b -> a = b.
Proof.
  intros [h p] [h' p'] E. unfold str_address in E. cbn [fst snd] in E.
  apply (f_equal (@rev N)) in E. rewrite !rev_app_distr in E. cbn [rev] in E. rewrite <- !app_assoc in E. cbn [app] in E.
  assert (K : forall u v x y, ~ In colon u -> ~ In colon v -> u ++ colon :: x = v ++ colon :: y -> u = v /\ x = y).
  { induction u as [|c u IH]; intros [|d v] x y Hu Hv F; cbn in F.
    - injection F as ->. auto.
    - injection F as <- _. destruct Hv. left. reflexivity.
    - injection F as -> _. destruct Hu. left. reflexivity.
    - injection F as -> F. destruct (IH v x y) as (-> & ->); auto; intros I; [apply Hu|apply Hv]; right; exact I. }
  apply K in E; [|intros I; apply in_rev in I; exact (str_int_no_colon _ I)..].
  destruct E as (E1 & E2). apply (f_equal (@rev N)) in E1, E2. rewrite !rev_involutive in E1, E2. subst h'.
  assert (Q : int_of (str_int p) = int_of (str_int p')) by congruence. rewrite !int_of_str_int in Q. congruence.
Qed.
Print Assumptions C48_print_injective.

(** C48.  What parses has exactly one colon, and its host and port survive printing and parsing
    again; anything else is refused. *)
Theorem C48_parse_print :
  forall s host port, from_string s = Some (host, port) ->
    (exists text, s = host ++ colon :: text /\ ~ In colon host /\ ~ In colon text) /\
    from_string (str_address (host, port)) = Some (host, port).
Proof.
  intros s host port E. unfold from_string in E. destruct (split colon s) as [|h [|p [|x t]]] eqn:Q; try discriminate.
  destruct (split_two _ _ _ _ Q) as (-> & Hh & Hp). destruct (int_of p) as [n|] eqn:Ep; [|discriminate]. injection E as -> ->.
  split; [exists p; auto|]. apply C48_print_parse. exact Hh.
Qed.
Print Assumptions C48_parse_print.

Lemma run_bind_done {A B} (r : reader A) (f : A -> reader B) : forall buf a rest,
  run r buf = Done a rest -> run (StreamModel.bind r f) buf = run (f a) rest.
Proof.
  induction r as [x| |n k IH]; intros buf a rest E; cbn in *.
  - injection E as <- <-. reflexivity.
  - discriminate.
  - destruct (n <=? length buf); [|discriminate]. apply IH. exact E.
Qed.

(** C48.  An address written to a stream is read back, and what follows it is left unread. *)
Theorem C48_stream_round_trip :
  forall host port b rest, ~ In colon host ->
    to_stream (host, port) = Some b -> run from_stream (b ++ rest) = Done (host, port) rest.
Proof.
  intros host port b rest H E. unfold from_stream.
  rewrite (run_bind_done _ _ _ _ _ (run_read_str _ _ rest E)). rewrite C48_print_parse by exact H. reflexivity.
Qed.
Print Assumptions C48_stream_round_trip.

(** "127.0.0.1", 25978. *)
Definition localhost : pystr := [49; 50; 55; 46; 48; 46; 48; 46; 49]%N.

Example C48_case :
  ~ In colon localhost /\
  str_address (localhost, 25978%Z) = (localhost ++ [58; 50; 53; 57; 55; 56])%N /\
  from_string (localhost ++ [58; 32; 43; 50; 53; 95; 57; 55; 56; 32]%N) = Some (localhost, 25978%Z) /\
  from_string (localhost ++ [58; 50; 53; 95; 95; 57]%N) = None /\
  exists b, to_stream (localhost, 25978%Z) = Some b /\ length b = 23.
Proof.
  split; [|split; [reflexivity|split; [reflexivity|split; [reflexivity|]]]].
  - intros I. repeat (destruct I as [I|I]; [discriminate I|]). exact I.
  - eexists. split; vm_compute; reflexivity.
Qed.

(** C48.  Without the condition on the host the claim fails: an IPv6 address prints but does not
    parse. *)
Theorem C48_ipv6_refuted : exists host port, from_string (str_address (host, port)) = None.
Proof. exists [58; 58; 49]%N, 25978%Z. reflexivity. Qed.
Print Assumptions C48_ipv6_refuted.

(** ** Port allocation *)

Lemma scan_spec (bind : os) ignore n : forall port made r tr,
  scan bind ignore n port made = (r, tr) ->
  exists new,
    tr = made ++ new /\
    (forall i a, nth_error new i = Some a -> got a = bind (made ++ firstn i new) (asked a)) /\
    (forall a, In a new -> port <= asked a < port + n /\ ~ In (asked a) ignore) /\
    (forall i j a b, nth_error new i = Some a -> nth_error new j = Some b -> i < j -> asked a < asked b) /\
    match r with
    | Some q => exists before p, new = before ++ [Attempt p (Some q)] /\ (forall a, In a before -> got a = None) /\
                  (forall x, port <= x < p -> In x ignore \/ In (Attempt x None) before)
    | None => (forall a, In a new -> got a = None) /\
              (forall x, port <= x < port + n -> In x ignore \/ In (Attempt x None) new)
    end.
Proof.
  induction n as [|n IH]; intros port made r tr E; cbn [scan] in E.
  - injection E as <- <-. exists []. split; [symmetry; apply app_nil_r|]. split; [intros [|i] a F; discriminate|].
    split; [intros a []|]. split; [intros [|i] j a b F; discriminate|]. split; [intros a []|intros x Hx; lia].
  - destruct (existsb (Nat.eqb port) ignore) eqn:Q.
    + destruct (IH _ _ _ _ E) as (new & -> & A & B & C & D). exists new. split; [reflexivity|]. split; [exact A|].
      split; [intros a I; specialize (B a I); split; [lia|apply B]|]. split; [exact C|].
      assert (Ip : In port ignore).
      { apply existsb_exists in Q. destruct Q as (x & I & F). apply Nat.eqb_eq in F. subst x. exact I. }
      destruct r as [q|].
      * destruct D as (bf & p & E1 & E2 & E3). exists bf, p. split; [exact E1|]. split; [exact E2|].
        intros x Hx. destruct (Nat.eq_dec x port) as [->|]; [left; exact Ip|apply E3; lia].
      * destruct D as (E1 & E2). split; [exact E1|]. intros x Hx. destruct (Nat.eq_dec x port) as [->|]; [left; exact Ip|apply E2; lia].
    + assert (Np : ~ In port ignore).
      { intros I. assert (F : existsb (Nat.eqb port) ignore = true) by (apply existsb_exists; exists port; split; [exact I|apply Nat.eqb_refl]). congruence. }
      destruct (bind made port) as [q|] eqn:Bq.
      * injection E as <- <-. exists [Attempt port (Some q)]. split; [reflexivity|].
        split; [|split; [|split]].
        -- intros [|[|i]] a F; cbn in F; [|discriminate..]. injection F as <-. cbn. rewrite app_nil_r. symmetry. exact Bq.
        -- intros a [<-|[]]. cbn [asked]. split; [lia|exact Np].
        -- intros [|[|i]] [|[|j]] a b F G L; cbn in F, G; try discriminate; lia.
        -- exists [], port. split; [reflexivity|]. split; [intros a []|intros x Hx; lia].
      * destruct (IH _ _ _ _ E) as (new & -> & A & B & C & D). exists (Attempt port None :: new).
        split; [rewrite <- app_assoc; reflexivity|]. split; [|split; [|split]].
        -- intros [|i] a F; cbn in F; [injection F as <-; cbn; rewrite app_nil_r; symmetry; exact Bq|].
           rewrite (A i a F). cbn [firstn]. rewrite <- app_assoc. reflexivity.
        -- intros a [<-|I]; [cbn [asked]; split; [lia|exact Np]|]. specialize (B a I). split; [lia|apply B].
        -- intros [|i] [|j] a b F G L; cbn in F, G; try lia.
           ++ injection F as <-. cbn [asked]. apply nth_error_In in G. specialize (B b G). lia.
           ++ apply (C i j a b F G). lia.
        -- destruct r as [q|].
           ++ destruct D as (bf & p & -> & E2 & E3). exists (Attempt port None :: bf), p. split; [reflexivity|].
              split; [intros a [<-|I]; [reflexivity|exact (E2 a I)]|].
              intros x Hx. destruct (Nat.eq_dec x port) as [->|]; [right; left; reflexivity|].
              destruct (E3 x) as [F|F]; [lia|left; exact F|right; right; exact F].
           ++ destruct D as (E1 & E2). split; [intros a [<-|I]; [reflexivity|exact (E1 a I)]|].
              intros x Hx. destruct (Nat.eq_dec x port) as [->|]; [right; left; reflexivity|].
              destruct (E2 x) as [F|F]; [lia|left; exact F|right; right; exact F].
Qed.

(** The operating system binds a socket to the port asked for, unless that is 0. *)
Definition honest (bind : os) : Prop := forall h p q, bind h p = Some q -> p <> 0 -> q = p.

(** [tr] is a sequence of bind calls answered by [bind]. *)
Definition answered (bind : os) (tr : list attempt) : Prop :=
  forall i a, nth_error tr i = Some a -> got a = bind (firstn i tr) (asked a).

(** C47.  Without a fixed port: if a socket is returned it is bound to a port of the range that is
    not reserved, and every smaller port of the range is reserved or was refused by the operating
    system; if none is returned every port of the range is reserved or was refused.  The ports are
    tried in increasing order, and nothing is left bound by the attempts that are not returned. *)
Theorem C47_first_bindable_port :
  forall bind start max ignore r tr,
    honest bind -> start <> 0 ->
    create_socket bind None start max ignore = (r, tr) ->
    answered bind tr /\
    (forall i j a b, nth_error tr i = Some a -> nth_error tr j = Some b -> i < j -> asked a < asked b) /\
    match r with
    | Some q =>
        start <= q <= max /\ ~ In q ignore /\
        exists before, tr = before ++ [Attempt q (Some q)] /\ (forall a, In a before -> got a = None) /\
          forall p, start <= p < q -> In p ignore \/ In (Attempt p None) before
    | None =>
        (forall a, In a tr -> got a = None) /\
        forall p, start <= p <= max -> In p ignore \/ In (Attempt p None) tr
    end.
Proof.
  intros bind start max ignore r tr H Ns E. unfold create_socket in E.
  destruct (scan_spec bind ignore _ _ _ _ _ E) as (new & Et & A & B & C & D). cbn [app] in Et. subst tr.
  split; [exact A|]. split; [exact C|]. destruct r as [q|].
  - destruct D as (bf & p & -> & E2 & E3).
    assert (I : In (Attempt p (Some q)) (bf ++ [Attempt p (Some q)])) by (apply in_or_app; right; left; reflexivity).
    destruct (B _ I) as (Bp & Np). cbn [asked] in *.
    assert (Eq : q = p).
    { destruct (In_nth_error _ _ I) as (i & Ei). specialize (A i _ Ei). cbn in A. symmetry in A.
      apply (H _ _ _ A). lia. }
    subst q. split; [lia|]. split; [exact Np|]. exists bf. split; [reflexivity|]. split; [exact E2|exact E3].
  - destruct D as (E1 & E2). split; [exact E1|]. intros p Hp. apply E2. lia.
Qed.
Print Assumptions C47_first_bindable_port.

(** C47.  With a fixed port exactly that port is asked for, once. *)
Theorem C47_fixed_port :
  forall bind p start max ignore, honest bind -> p <> 0 ->
    create_socket bind (Some p) start max ignore = (bind [] p, [Attempt p (bind [] p)]) /\
    (bind [] p = Some p \/ bind [] p = None).
Proof.
  intros bind p start max ignore H Np. split; [reflexivity|].
  destruct (bind [] p) as [q|] eqn:E; [left; f_equal; exact (H _ _ _ E Np)|auto].
Qed.
Print Assumptions C47_fixed_port.

(** Ports 7 and 9 are busy, 8 is reserved. *)
Definition busy79 : os := fun _ p => if existsb (Nat.eqb p) [7; 9] then None else Some p.

Example C47_case :
  honest busy79 /\
  create_socket busy79 None 7 100 [8] = (Some 10, [Attempt 7 None; Attempt 9 None; Attempt 10 (Some 10)]) /\
  create_socket busy79 None 7 9 [8] = (None, [Attempt 7 None; Attempt 9 None]).
Proof.
  split; [|split; reflexivity]. intros h p q E _. unfold busy79 in E. destruct (existsb _ _); [discriminate|congruence].
Qed.

(** C47.  A search from port 0, the default of create_socket, asks the operating system for any
    port, and may be given the reserved one. *)
Theorem C47_port_zero_refuted :
  exists (bind : os) q tr,
    honest bind /\ create_socket bind None 0 65535 RESERVED_PORTS = (Some q, tr) /\ In q RESERVED_PORTS.
Proof.
  exists (fun _ p => if p =? 0 then Some 25978 else Some p), 25978, [Attempt 0 (Some 25978)].
  split; [intros h p q E N; destruct p; [congruence|injection E as <-; reflexivity]|].
  split; [|left; reflexivity]. unfold create_socket. rewrite Nat.sub_0_r. cbn [scan].
  change (existsb (Nat.eqb 0) RESERVED_PORTS) with (0 =? 25978).
  assert (Z : (0 =? 25978) = false) by (vm_compute; reflexivity). cbn [orb]. rewrite Z. reflexivity.
Qed.
Print Assumptions C47_port_zero_refuted.
