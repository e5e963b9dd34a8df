(* Model of src/ezmsg/util/messages/axisarray.py (labelled arrays, 35-907), of
   src/ezmsg/util/messages/chunker.py:13-63 (array_chunker) and of
   src/ezmsg/util/messages/modify.py:36-59 (ModifyAxisTransformer).

   Numbers on axes are exact rationals: the rounding of floating point arithmetic is left out.
   The array library (numpy) is modelled by what the functions used here are documented to return.
   None as a result stands for an exception. *)

From Coq Require Import List Bool Arith ZArith QArith Qround.
From Verif Require Import Dict.
Import ListNotations.
Local Open Scope nat_scope.

(** ** Arrays *)

(** An array: its shape, and its elements by index; only indices in range count. *)
Record arr (A : Type) := Arr { shape : list nat; elt : list nat -> A }.
Arguments Arr {A}.
Arguments shape {A}.
Arguments elt {A}.

(** l[k] = v *)
Fixpoint upd {X} (k : nat) (v : X) (l : list X) : list X :=
  match l, k with
  | [], _ => []
  | _ :: l, 0 => v :: l
  | x :: l, S k => x :: upd k v l
  end.

Fixpoint remove_nth {X} (k : nat) (l : list X) : list X :=
  match l, k with
  | [], _ => []
  | _ :: l, 0 => l
  | x :: l, S k => x :: remove_nth k l
  end.

Fixpoint insert_nth {X} (k : nat) (v : X) (l : list X) : list X :=
  match k, l with
  | 0, _ => v :: l
  | S k, x :: l => x :: insert_nth k v l
  | S _, [] => [v]
  end.

Section Numpy.
Context {A : Type}.

Definition ndim (a : arr A) : nat := length (shape a).
Definition size_at (k : nat) (a : arr A) : nat := nth k (shape a) 0.

(** numpy.take(a, indices, axis=k), indices in range: also a[:, ..., slice, ..., :]. *)
Definition take (a : arr A) (indices : list nat) (k : nat) : arr A :=
  Arr (upd k (length indices) (shape a)) (fun idx => elt a (upd k (nth (nth k idx 0) indices 0) idx)).

(** a[:, ..., i, ..., :]: the axis goes. *)
Definition pick (a : arr A) (i k : nat) : arr A :=
  Arr (remove_nth k (shape a)) (fun idx => elt a (insert_nth k i idx)).

(** numpy.concatenate: which array an index falls into. *)
Fixpoint cat_elt (k : nat) (first : arr A) (rest : list (arr A)) (idx : list nat) : A :=
  if nth k idx 0 <? size_at k first then elt first idx
  else match rest with
       | [] => elt first idx
       | a :: rest => cat_elt k a rest (upd k (nth k idx 0 - size_at k first) idx)
       end.

Definition concatenate (l : list (arr A)) (k : nat) : option (arr A) :=
  match l with
  | [] => None
  | a :: rest =>
      if (k <? ndim a) && forallb (fun b => eqd (upd k 0 (shape b)) (upd k 0 (shape a))) rest
      then Some (Arr (upd k (list_sum (map (size_at k) l)) (shape a)) (cat_elt k a rest))
      else None
  end.

(** numpy.array of a list of arrays: a new first axis. *)
Definition stack (l : list (arr A)) : option (arr A) :=
  match l with
  | [] => None
  | a :: rest =>
      if forallb (fun b => eqd (shape b) (shape a)) rest
      then Some (Arr (length l :: shape a)
                     (fun idx => match idx with i :: idx => elt (nth i l a) idx | [] => elt a [] end))
      else None
  end.

(** numpy.transpose(a, perm), perm a permutation of the axes (otherwise: ValueError). *)
Definition transpose (a : arr A) (perm : list nat) : option (arr A) :=
  if eqd (length perm) (ndim a) && forallb (fun k => existsb (Nat.eqb k) perm) (seq 0 (ndim a))
  then Some (Arr (map (fun k => nth k (shape a) 0) perm)
                 (fun idx => elt a (map (fun k => match find (fun p => Nat.eqb (snd p) k) (combine idx perm) with
                                                 | Some p => fst p | None => 0 end) (seq 0 (ndim a)))))
  else None.

(** Row-major position of an index. *)
Fixpoint ravel (sh idx : list nat) : nat :=
  match sh, idx with
  | _ :: sh, i :: idx => i * fold_right Nat.mul 1 sh + ravel sh idx
  | _, _ => 0
  end.

Fixpoint unravel (sh : list nat) (p : nat) : list nat :=
  match sh with
  | [] => []
  | _ :: sh => p / fold_right Nat.mul 1 sh :: unravel sh (p mod fold_right Nat.mul 1 sh)
  end.

(** numpy.reshape *)
Definition reshape (a : arr A) (sh : list nat) : option (arr A) :=
  if Nat.eqb (fold_right Nat.mul 1 sh) (fold_right Nat.mul 1 (shape a))
  then Some (Arr sh (fun idx => elt a (unravel (shape a) (ravel sh idx))))
  else None.

(** numpy.moveaxis(a, k, 0) *)
Definition move_first (a : arr A) (k : nat) : arr A :=
  Arr (size_at k a :: remove_nth k (shape a))
      (fun idx => match idx with i :: idx => elt a (insert_nth k i idx) | [] => elt a [] end).

(** numpy.squeeze(a, axis=ks) *)
Fixpoint drop_at {X} (ks : list nat) (n : nat) (l : list X) : list X :=
  match l with
  | [] => []
  | x :: l => if existsb (Nat.eqb n) ks then drop_at ks (S n) l else x :: drop_at ks (S n) l
  end.

Fixpoint fill_at (ks : list nat) (n len : nat) (idx : list nat) : list nat :=
  match len with
  | 0 => []
  | S len => if existsb (Nat.eqb n) ks then 0 :: fill_at ks (S n) len idx
             else match idx with
                  | i :: idx => i :: fill_at ks (S n) len idx
                  | [] => 0 :: fill_at ks (S n) len []
                  end
  end.

Definition squeeze (a : arr A) (ks : list nat) : option (arr A) :=
  if forallb (fun k => Nat.eqb (nth k (shape a) 0) 1) ks
  then Some (Arr (drop_at ks 0 (shape a)) (fun idx => elt a (fill_at ks 0 (ndim a) idx)))
  else None.
End Numpy.

(** An axis given as a Python index. *)
Definition norm_axis (nd : nat) (axis : Z) : option nat :=
  (if (axis <? - Z.of_nat nd) || (Z.of_nat nd <=? axis) then None
   else Some (Z.to_nat (if axis <? 0 then axis + Z.of_nat nd else axis)))%Z.

(** ** Python slices *)

Record pyslice := Slice { sl_start : option Z; sl_stop : option Z; sl_step : option Z }.

(** PySlice_AdjustIndices of CPython: list(range(n)[s]); None: the step is 0. *)
Definition slice_indices (s : pyslice) (n : nat) : option (list nat) :=
  (let len := Z.of_nat n in
   let step := match sl_step s with Some k => k | None => 1 end in
   if step =? 0 then None else
   let clip x := if x <? 0 then (if x + len <? 0 then (if step <? 0 then -1 else 0) else x + len)
                 else if len <=? x then (if step <? 0 then len - 1 else len) else x in
   let start := match sl_start s with Some x => clip x | None => if step <? 0 then len - 1 else 0 end in
   let stop := match sl_stop s with Some x => clip x | None => if step <? 0 then -1 else len end in
   let count := if step <? 0 then (if stop <? start then (start - stop - 1) / (- step) + 1 else 0)
                else (if start <? stop then (stop - start - 1) / step + 1 else 0) in
   Some (map (fun i => Z.to_nat (start + Z.of_nat i * step)) (seq 0 (Z.to_nat count))))%Z.

(** axisarray.py:658-684: slice_along_axis with a slice. *)
Definition slice_along_axis {A} (a : arr A) (s : pyslice) (axis : Z) : option (arr A) :=
  match norm_axis (ndim a) axis with
  | None => None
  | Some k => match slice_indices s (size_at k a) with Some l => Some (take a l k) | None => None end
  end.

(** ** Axes *)

Section Labelled.
Context {A D U V T K : Type} `{Dec D} `{Dec K}.
(** Elements, names of dimensions, units, coordinates, attributes, keys. *)

(** 35-185: LinearAxis and CoordinateAxis. *)
Inductive axis :=
| Linear (unit : U) (gain offset : Q)
| Coordinate (unit : U) (coords : arr V) (cdims : list D).

(** 83: value *)
Definition lin_value (gain offset : Q) (x : Z) : Q := (inject_Z x * gain + offset)%Q.

(** numpy.rint: to the nearest integer, halves to the even one. *)
Definition rint (q : Q) : Z :=
  let f := Qround.Qfloor q in
  match Qcompare (q - inject_Z f) (1 # 2) with
  | Lt => f
  | Gt => (f + 1)%Z
  | Eq => if Z.even f then f else (f + 1)%Z
  end.

(** 92-104: index with the default rounding; None: division by a gain of 0 gives no number. *)
Definition lin_index (gain offset : Q) (v : Q) : option Z :=
  if Qeq_bool gain 0 then None else Some (rint ((v - offset) / gain)%Q).

(** 120-199 *)
Record aa := AA {
  data : arr A;
  dims : list D;
  axes : list (D * axis);
  attrs : T;
  key : K
}.

(** 139-143: __post_init__; fast_replace (util.py:35-37) goes through it too. *)
Definition make (d : arr A) (ds : list D) (axs : list (D * axis)) (at_ : T) (k : K) : option aa :=
  if Nat.eqb (length ds) (ndim d) && eqd (length (fold_left (fun s x => sadd x s) ds [])) (length ds)
  then Some (AA d ds axs at_ k) else None.

(** list.index *)
Fixpoint index_of (x : D) (l : list D) : option nat :=
  match l with
  | [] => None
  | y :: l => if dec x y then Some 0 else option_map S (index_of x l)
  end.

Variable unit0 : U.   (* "" *)

(** 436-462: ax and get_axis, given a name.  AxisInfo (300-304) refuses a CoordinateAxis, because the
    size is always passed. *)
Definition ax (a : aa) (d : D) : option (U * Q * Q * nat) :=
  match index_of d (dims a) with
  | None => None
  | Some i =>
      match get d (axes a) with
      | None => Some (unit0, 1%Q, 0%Q, i)
      | Some (Linear u g o) => Some (u, g, o, i)
      | Some (Coordinate _ _ _) => None
      end
  end.

Inductive indexer := IInt (z : Z) | IArr (zs : list Z) | ISlice (s : pyslice).

(** numpy.take of one index *)
Definition wrap (n : nat) (z : Z) : option nat :=
  (if (z <? - Z.of_nat n) || (Z.of_nat n <=? z) then None
   else Some (Z.to_nat (if z <? 0 then z + Z.of_nat n else z)))%Z.

Fixpoint sequence {X} (l : list (option X)) : option (list X) :=
  match l with
  | [] => Some []
  | Some x :: l => option_map (cons x) (sequence l)
  | None :: _ => None
  end.

(** The indices selected. *)
Definition selected (ix : indexer) (n : nat) : option (list nat) :=
  match ix with
  | IInt z => option_map (fun i => [i]) (wrap n z)
  | IArr zs => sequence (map (wrap n) zs)
  | ISlice s => slice_indices s n
  end.

(** 349-368: isel *)
Fixpoint isel_loop (a : aa) (ixs : list (D * indexer)) (axs : list (D * axis)) (d : arr A) : option (list (D * axis) * arr A) :=
  match ixs with
  | [] => Some (axs, d)
  | (n, ix) :: ixs =>
      match ax a n with
      | None => None
      | Some (u, g, o, i) =>
          match selected ix (size_at i (data a)) with
          | None => None
          | Some l =>
              if mem n (keys axs) then
                match l with
                | [] => None                (* indices[0]: IndexError *)
                | j :: _ => isel_loop a ixs (put n (Linear u g (lin_value g o (Z.of_nat j))) axs) (take d l i)
                end
              else isel_loop a ixs axs (take d l i)
          end
      end
  end.

Definition isel (a : aa) (ixs : list (D * indexer)) : option aa :=
  match isel_loop a ixs (axes a) (data a) with
  | None => None
  | Some (axs, d) => make d (dims a) axs (attrs a) (key a)
  end.

(** 370-403: sel, with slices of values; int() of a quotient is cut towards 0. *)
Record vslice := VSlice { v_start : option Q; v_stop : option Q; v_step : option Q }.

Definition qtrunc (q : Q) : Z := (Z.quot (Qnum q) (Zpos (Qden q)))%Z.

Definition opt_map {X Y} (f : X -> option Y) (x : option X) : option (option Y) :=
  match x with None => Some None | Some x => option_map Some (f x) end.

Fixpoint sel_loop (a : aa) (ixs : list (D * vslice)) : option (list (D * indexer)) :=
  match ixs with
  | [] => Some []
  | (n, s) :: ixs =>
      match (if mem n (dims a) then match get n (axes a) with None => Some (1%Q, 0%Q) | Some (Linear _ g o) => Some (g, o) | _ => None end else None) with
      | None => None
      | Some (g, o) =>
          match opt_map (lin_index g o) (v_start s), opt_map (lin_index g o) (v_stop s),
                opt_map (fun st => if Qeq_bool g 0 then None else Some (qtrunc (st / g)%Q)) (v_step s) with
          | Some b, Some e, Some st => option_map (cons (n, ISlice (Slice b e st))) (sel_loop a ixs)
          | _, _, _ => None
          end
      end
  end.

Definition sel (a : aa) (ixs : list (D * vslice)) : option aa :=
  match sel_loop a ixs with Some l => isel a l | None => None end.

(** 519-544: iter_over_axis, given the axis as a number; [i != axis_idx] compares with the number as
    given. *)
Definition iter_over_axis (a : aa) (axis_idx : Z) : option (list aa) :=
  match norm_axis (length (dims a)) axis_idx, norm_axis (ndim (data a)) axis_idx with
  | Some kd, Some k =>
      match nth_error (dims a) kd with
      | None => None
      | Some dn =>
          let new_dims := map snd (filter (fun p => negb (Z.eqb (Z.of_nat (fst p)) axis_idx)) (combine (seq 0 (length (dims a))) (dims a))) in
          let new_axes := filter (fun p => if dec (fst p) dn then false else true) (axes a) in
          sequence (map (fun i => make (pick (data a) i k) new_dims new_axes (attrs a) (key a)) (seq 0 (size_at k (data a))))
      end
  | _, _ => None
  end.

(** 574-633: concatenate; filter_key is applied before. *)
Definition has_data (x : axis) : bool := match x with Coordinate _ _ _ => true | Linear _ _ _ => false end.

Definition concat_axis (l : list aa) (dim : D) : option (option axis) :=
  (* None: an exception; Some None: no change *)
  if forallb (fun a => match get dim (axes a) with Some x => has_data x | None => false end) l then
    match l with
    | [] => None
    | a0 :: _ =>
        match get dim (axes a0) with
        | Some (Coordinate u c cd) =>
            let cs := flat_map (fun a => match get dim (axes a) with Some (Coordinate _ c _) => [c] | _ => [] end) l in
            match concatenate cs 0 with
            | Some r => if Nat.eqb (length cd) (ndim r) && eqd (length (fold_left (fun s x => sadd x s) cd [])) (length cd)
                        then Some (Some (Coordinate u r cd)) else None
            | None => None
            end
        | _ => None
        end
    end
  else Some None.

Variable key0 : K.   (* "" *)

Definition concat_aa (l : list aa) (dim : D) (axis_given : option axis) : option aa :=
  match l with
  | [] => None
  | a0 :: rest =>
      if forallb (fun a => eqd (dims a) (dims a0)) rest then
        let new_key := if forallb (fun a => eqd (key a) (key a0)) l then key a0 else key0 in
        match (match axis_given with Some x => Some (Some x) | None => concat_axis l dim end) with
        | None => None
        | Some nx =>
            let new_axes := match nx with Some x => put dim x (axes a0) | None => axes a0 end in
            match index_of dim (dims a0) with
            | Some k => match concatenate (map data l) k with
                        | Some d => make d (dims a0) new_axes (attrs a0) new_key
                        | None => None
                        end
            | None => match stack (map data l) with
                      | Some d => make d (dim :: dims a0) new_axes (attrs a0) new_key
                      | None => None
                      end
            end
        end
      else None
  end.

(** 636-655: transpose, given the axes as numbers. *)
Definition transpose_aa (a : aa) (order : option (list Z)) : option aa :=
  let ds := match order with None => map Z.of_nat (rev (seq 0 (ndim (data a)))) | Some l => l end in
  match sequence (map (norm_axis (length (dims a))) ds) with
  | None => None
  | Some ks =>
      match sequence (map (nth_error (dims a)) ks), transpose (data a) ks with
      | Some nd, Some d => make d nd (axes a) (attrs a) (key a)
      | _, _ => None
      end
  end.

(** modify.py:36-59: ModifyAxisTransformer.__call__.  [m]: name_map; None drops the dimension. *)
Definition renamed (m : list (D * option D)) (d : D) : option D :=
  match get d m with Some n => n | None => Some d end.

Definition modify (m : option (list (D * option D))) (a : aa) : option aa :=
  match m with
  | None => Some a
  | Some m =>
      let nd := map (renamed m) (dims a) in
      (* the dict of the new axes; None as a key is left out of it at once *)
      let new_axes := fold_left (fun d p => match renamed m (fst p) with Some n => put n (snd p) d | None => d end) (axes a) [] in
      let drop := map fst (filter (fun p => match snd p with None => true | Some _ => false end) (combine (seq 0 (length nd)) nd)) in
      let new_dims := flat_map (fun x => match x with Some d => [d] | None => [] end) nd in
      match drop with
      | [] => make (data a) new_dims new_axes (attrs a) (key a)
      | _ => match squeeze (data a) drop with
             | Some d => make d new_dims new_axes (attrs a) (key a)
             | None => None
             end
      end
  end.

(** ** chunker.py:13-63 *)

Variables (time_ : D) (dname : nat -> D) (sec : U) (attrs0 : T).
(** "time", f"d{i}", "s", the default attrs. *)

(** array_chunker: the arrays it yields.  n_chunks is computed exactly. *)
Definition array_chunker (d : arr A) (chunk_len : Z) (axis_ : Z) (fs tzero : Q) : option (list aa) :=
  match norm_axis (ndim d) axis_ with
  | None => None
  | Some k =>
      if Z.eqb chunk_len 0 then None else
      if Qeq_bool fs 0 then None else
      let n_chunks := (- ((- Z.of_nat (size_at k d)) / chunk_len))%Z in
      if (n_chunks <=? 0)%Z then None else      (* tvec[0]: IndexError *)
      let out_dims := upd k time_ (map dname (seq 0 (ndim d))) in
      sequence (map (fun i =>
        match slice_along_axis d (Slice (Some (Z.of_nat i * chunk_len)%Z) (Some ((Z.of_nat i + 1) * chunk_len)%Z) None) axis_ with
        | None => None
        | Some v => make v out_dims [(time_, Linear sec (1 / fs)%Q (inject_Z (Z.of_nat i) * inject_Z chunk_len / fs + tzero)%Q)] attrs0 key0
        end) (seq 0 (Z.to_nat n_chunks)))
  end.
End Labelled.
Arguments axis : clear implicits.
Arguments aa : clear implicits.

(** ** Sliding windows *)

(** An array in memory: element idx is at [base + sum of idx_k * stride_k]. *)
Record strided (A : Type) := Strided { memory : Z -> A; base : Z; s_shape : list nat; strides : list Z }.
Arguments Strided {A}.
Arguments memory {A}.
Arguments base {A}.
Arguments s_shape {A}.
Arguments strides {A}.

Fixpoint dot (idx : list nat) (st : list Z) : Z :=
  match idx, st with
  | i :: idx, s :: st => (Z.of_nat i * s + dot idx st)%Z
  | _, _ => 0%Z
  end.

Definition as_arr {A} (s : strided A) : arr A :=
  Arr (s_shape s) (fun idx => memory s (base s + dot idx (strides s))%Z).

(** numpy.lib.stride_tricks.as_strided *)
Definition as_strided {A} (s : strided A) (sh : list nat) (st : list Z) : strided A :=
  Strided (memory s) (base s) sh st.

(** axisarray.py:732-790: _sliding_win_strided; the axis is not negative, nor is nwin. *)
Definition sliding_win_strided {A} (s : strided A) (nwin : nat) (k : nat) (step : Z) : option (arr A) :=
  match nth_error (s_shape s) k, nth_error (strides s) k with
  | Some len, Some st =>
      let n_windows := (Z.of_nat len - (Z.of_nat nwin - 1))%Z in
      if (n_windows <? 0)%Z then None else
      let r := as_strided s (firstn k (s_shape s) ++ [Z.to_nat n_windows; nwin] ++ skipn (S k) (s_shape s))
                            (firstn k (strides s) ++ [st; st] ++ skipn (S k) (strides s)) in
      if (1 <? step)%Z then slice_along_axis (as_arr r) (Slice None None (Some step)) (Z.of_nat k) else Some (as_arr r)
  | _, _ => None
  end.

(** 793-818: _sliding_win_generic, for a step of at least 1; arange(0, n, step). *)
Definition arange_step (n : Z) (step : Z) : list nat :=
  if (n <=? 0)%Z then [] else map (fun i => i * Z.to_nat step) (seq 0 (Z.to_nat ((n - 1) / step + 1))).

Definition sliding_win_generic {A} (zero : A) (a : arr A) (nwin : nat) (k : nat) (step : Z) : option (arr A) :=
  match nth_error (shape a) k with
  | Some len =>
      let n_windows := (Z.of_nat len - (Z.of_nat nwin - 1))%Z in
      if (n_windows <? 0)%Z then None else
      let pre := firstn k (shape a) in
      let post := skipn (S k) (shape a) in
      if Nat.eqb nwin 0 then Some (Arr (pre ++ [Z.to_nat n_windows; 0] ++ post) (fun _ => zero)) else
      let starts := arange_step n_windows step in
      let indices := flat_map (fun i => map (fun j => i + j) (seq 0 nwin)) starts in
      reshape (take a indices k) (pre ++ [length starts; nwin] ++ post)
  | None => None
  end.

(** ** Two-dimensional views *)

(** 821-844: _as2d of an array that has dimensions; one of them gets a second one of length 1. *)
Definition as2d {A} (a : arr A) (axis_ : Z) : option (arr A) :=
  let a' := match shape a with [n] => Arr [n; 1] (fun idx => elt a (firstn 1 idx)) | _ => a end in
  match norm_axis (ndim a') axis_ with
  | None => None
  | Some k => let m := move_first a' k in
              reshape m [size_at k a'; fold_right Nat.mul 1 (remove_nth k (shape a'))]
  end.

(** 893-907: shape2d *)
Definition shape2d {A} (a : arr A) (axis_ : Z) : option (nat * nat) :=
  match norm_axis (ndim a) axis_ with
  | None => None
  | Some k => Some (size_at k a,
      fold_right Nat.mul 1 (map snd (filter (fun p => negb (Z.eqb (Z.of_nat (fst p)) axis_)) (combine (seq 0 (ndim a)) (shape a)))))
  end.

(** 845-890: what view2d writes back into an array of this shape when the 2D array [v] shared no memory
    with it: reshape to [n :: rest], then moveaxis(0, k). *)
Definition write_back {A} (v : arr A) (sh : list nat) (k : nat) : option (arr A) :=
  match reshape v (nth k sh 0 :: remove_nth k sh) with
  | None => None
  | Some m => Some (Arr sh (fun idx => elt m (nth k idx 0 :: remove_nth k idx)))
  end.
