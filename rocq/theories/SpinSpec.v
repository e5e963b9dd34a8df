(** What C76 is about: who gets a message, when it is released, and what spin_once answers. *)
From Coq Require Import List Arith Bool.
From Verif Require Import SpinModel.
Import ListNotations.

(** After some history of a context with [n] callbacks. *)
Definition history (n : nat) (zc : nat -> bool) (es : list event) (s : state) : Prop :=
  exists k, steps n zc (start k) es = Some s.

(** The notifications that arrived at subscription [i], in order. *)
Definition arrived (i : nat) (es : list event) : list (nat * nat) :=
  flat_map (fun e => match e with Arrive j m => if j =? i then [m] else [] | _ => [] end) es.

(** Those of them that were dealt with, in order: given to the callback, or not for one of four reasons. *)
Definition dealt (i : nat) (l : list obs) : list (nat * nat) :=
  flat_map (fun o => match o with
                     | OCall j m | OUncopied j m | OMiss j m | OSkip j m | ODrop j m => if j =? i then [m] else []
                     | _ => []
                     end) l.

(** Those given to the callback. *)
Definition called (i : nat) (l : list obs) : list (nat * nat) :=
  flat_map (fun o => match o with OCall j m => if j =? i then [m] else [] | _ => [] end) l.

(** [a] is [b] with some elements left out. *)
Inductive subsequence {A : Type} : list A -> list A -> Prop :=
  | sub_nil : subsequence [] []
  | sub_skip x a b : subsequence a b -> subsequence a (x :: b)
  | sub_keep x a b : subsequence a b -> subsequence (x :: a) (x :: b).

(** Nobody interrupts: no KeyboardInterrupt, and no callback raises anything but an Exception. *)
Definition undisturbed (es : list event) : Prop :=
  ~ In Interrupt es /\ ~ In (CallbackEnds true) es.

(** What is done with a message is done in one go: a callback is followed by the release of its message and
    by nothing else before that. *)
Inductive tidy : list obs -> Prop :=
  | tidy_nil : tidy []
  | tidy_call l i m : tidy l -> tidy (l ++ [OCall i m; OEnd i m; ORelease i m])
  | tidy_uncopied l i m : tidy l -> tidy (l ++ [OUncopied i m; ORelease i m])
  | tidy_miss l i m : tidy l -> tidy (l ++ [OMiss i m; ORelease i m])
  | tidy_skip l i m : tidy l -> tidy (l ++ [OSkip i m])
  | tidy_drop l i m : tidy l -> tidy (l ++ [ODrop i m])
  | tidy_spin l lim : tidy l -> tidy (l ++ [OSpin lim])
  | tidy_return l b : tidy l -> tidy (l ++ [OReturn b])
  | tidy_raise l : tidy l -> tidy (l ++ [ORaise]).

(** Reading what was seen in order: [lim], whether the call running has a time-out; [some], whether it has
    dealt with a message.  It answers True exactly then, and False only if it has a time-out. *)
Fixpoint answers (lim some : bool) (l : list obs) : Prop :=
  match l with
  | [] => True
  | OSpin b :: r => answers b false r
  | (OCall _ _ | OUncopied _ _) :: r => answers lim true r
  | OReturn b :: r => b = some /\ (b = false -> lim = true) /\ answers lim some r
  | _ :: r => answers lim some r
  end.

(** The message stays where it is: not evicted, and its publisher remains known to the subscription. *)
Definition stays (i : nat) (m : nat * nat) (es : list event) : Prop :=
  ~ In (Evict m) es /\ (forall ps, In (Publishers i ps) es -> In (fst m) ps).

(** What happens without messages, publishers, caches or interruptions: the loop and the calling thread go on. *)
Definition goes_on (e : event) : bool :=
  match e with Run _ | WaitOver _ | Cancel _ | Resume _ _ | Call _ | CallbackEnds false => true | _ => false end.

(** The call of spin_once that is running has a message to deal with, or a time-out. *)
Definition has_work (n : nat) (s : state) : Prop :=
  match now s with
  | Out => False
  | Waiting lim ts =>
      lim = true \/ exists i, i < n /\ ((exists m, ts i = Done (Got m)) \/
        ((ts i = Fresh \/ ts i = Blocked) /\ exists m q, queue (subs s i) = m :: q /\ In (fst m) (known (subs s i)) /\ In m (cached s)))
  | Gathering lim rs ts => lim = true \/ rs <> []
  | Calling _ | InCallback _ _ _ => True
  end.
