(** Vocabulary for C13 and C14. *)
From Coq Require Import NArith Ascii String List ZArith Arith Bool.
From Verif Require Import LeakyQueueModel TransportModel.
Import ListNotations.

Local Open Scope string_scope.
Local Open Scope list_scope.

Section Q.
Context {A : Type}.
(** Everything put, in order. *)
Definition puts (ops : list (q_op A)) : list A := flat_map (fun o => match o with QPut x => [x] | QGet => [] end) ops.
Definition removed_item (r : removal A) : A := match r with Got x => x | Dropped x => x end.

End Q.

(** Every way the message of one broadcast reaches the process at index [ix]: through the one local
    put if that process is the local one, and through the frames addressed to it. *)
Definition transport_of (c : pub_config) (chs : list channel_info) (ix : nat) : list transport :=
  match nth_error chs ix with
  | None => []
  | Some ch =>
      (if can_deliver_locally c ch && existsb (fun a => match a with PutLocal => true | _ => false end) (broadcast_actions c chs)
       then [InProcess] else []) ++
      flat_map (fun a => match a with
        | SendShm j => if Nat.eqb j ix then [SharedMemory] else []
        | SendTcp j => if Nat.eqb j ix then [Tcp] else []
        | PutLocal => [] end) (broadcast_actions c chs)
  end.

(** The four words, in any mixture of upper and lower case. *)
Definition same_letter (c w : Ascii.ascii) : bool :=
  Ascii.eqb c w || ((65 <=? N_of_ascii c)%N && (N_of_ascii c <=? 90)%N && (N_of_ascii w =? N_of_ascii c + 32)%N).
Fixpoint same_word (s w : string) : bool :=
  match s, w with
  | EmptyString, EmptyString => true
  | String c s', String d w' => same_letter c d && same_word s' w'
  | _, _ => false
  end.
Definition says_yes (s : string) : bool :=
  same_word s "1" || same_word s "true" || same_word s "yes" || same_word s "on".

(** The setting in force: an explicit option wins over the environment; the environment counts when
    non-empty; the defaults are force_tcp off, allow_local on. *)
Definition effective (default : bool) (env : option string) (opt : option bool) : bool :=
  match opt, env with
  | Some b, _ => b
  | None, None => default
  | None, Some s => if String.eqb s EmptyString then default else says_yes s
  end.

