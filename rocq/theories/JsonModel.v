(* The text of a log entry: Python's json.dumps and json.loads as the message log uses them
     messagelogger.py:24    json.dumps(..., cls=MessageEncoder)
     messagecodec.py:202    json.loads(line, cls=MessageDecoder)
   with their default arguments (ensure_ascii, separators ", " and ": ", strict).  The json module
   is part of Python and not of /repo; this is a model of json/encoder.py, json/decoder.py and
   json/scanner.py of Python 3.11.

   Simplifications: a finite float is represented by its text, float.__repr__, which is one-to-one
   (float(repr(x)) == x); the digits of a \u escape are hexadecimal digits and nothing else (int also
   takes spaces and signs).  None is JSONDecodeError. *)

From Coq Require Import String Ascii List NArith ZArith Arith Bool.
From Verif Require Import CodecModel AddressModel.
Import ListNotations.

(** A literal, as a Python string. *)
Definition u (s : string) : pystr := map N_of_ascii (list_ascii_of_string s).

Inductive pyfloat :=
| Finite (repr : pystr)
| NaN
| Infinity (negative : bool).

Inductive json :=
| JNull
| JBool (b : bool)
| JInt (z : Z)
| JFloat (f : pyfloat)
| JStr (s : pystr)
| JArr (l : list json)
| JObj (l : list (pystr * json)).     (* the pairs of an object, in the order of the text *)

(** ** Writing *)

Definition quote : N := 34.
Definition backslash : N := 92.

(** '{0:04x}'.format *)
Definition hex_digit (n : N) : N := if (n <? 10)%N then (48 + n)%N else (87 + n)%N.
Definition hex4_text (n : N) : pystr :=
  [hex_digit (n / 4096 mod 16)%N; hex_digit (n / 256 mod 16)%N; hex_digit (n / 16 mod 16)%N; hex_digit (n mod 16)%N].
Definition u_escape (n : N) : pystr := backslash :: 117%N :: hex4_text n.

(** encoder.py: ESCAPE_DCT and the replacement of py_encode_basestring_ascii *)
Definition escape (c : N) : pystr :=
  if (c =? quote)%N then [backslash; quote]
  else if (c =? backslash)%N then [backslash; backslash]
  else if (c =? 10)%N then [backslash; 110%N]
  else if (c =? 13)%N then [backslash; 114%N]
  else if (c =? 9)%N then [backslash; 116%N]
  else if (c =? 12)%N then [backslash; 102%N]
  else if (c =? 8)%N then [backslash; 98%N]
  else if ((32 <=? c) && (c <=? 126))%N then [c]
  else if (c <? 65536)%N then u_escape c
  else u_escape (55296 + (c - 65536) / 1024)%N ++ u_escape (56320 + (c - 65536) mod 1024)%N.

Definition string_text (s : pystr) : pystr := quote :: flat_map escape s ++ [quote].

(** float.__repr__, and the names of encoder.py floatstr *)
Definition float_text (f : pyfloat) : pystr :=
  match f with
  | Finite r => r
  | NaN => u "NaN"
  | Infinity false => u "Infinity"
  | Infinity true => u "-Infinity"
  end.

Fixpoint join_text (l : list pystr) : pystr :=
  match l with
  | [] => []
  | [x] => x
  | x :: r => x ++ u ", " ++ join_text r
  end.

(** encoder.py _iterencode, with its list and dict loops *)
Fixpoint text (j : json) : pystr :=
  match j with
  | JNull => u "null"
  | JBool true => u "true"
  | JBool false => u "false"
  | JInt z => str_int z
  | JFloat f => float_text f
  | JStr s => string_text s
  | JArr l => u "[" ++ join_text (map text l) ++ u "]"
  | JObj l => u "{" ++ join_text (map (fun p => string_text (fst p) ++ u ": " ++ text (snd p)) l) ++ u "}"
  end.

(** ** Reading *)

Definition is_ws (c : N) : bool := ((c =? 32) || (c =? 9) || (c =? 10) || (c =? 13))%N.
Fixpoint skip_ws (s : pystr) : pystr :=
  match s with c :: r => if is_ws c then skip_ws r else s | [] => [] end.

Definition hex_value (c : N) : option N :=
  if ((48 <=? c) && (c <=? 57))%N then Some (c - 48)%N
  else if ((97 <=? c) && (c <=? 102))%N then Some (c - 87)%N
  else if ((65 <=? c) && (c <=? 70))%N then Some (c - 55)%N
  else None.
Definition hex4 (a b c d : N) : option N :=
  match hex_value a, hex_value b, hex_value c, hex_value d with
  | Some a, Some b, Some c, Some d => Some (a * 4096 + b * 256 + c * 16 + d)%N
  | _, _, _, _ => None
  end.

(** decoder.py BACKSLASH *)
Definition unescape (c : N) : option N :=
  if (c =? quote)%N then Some quote
  else if (c =? backslash)%N then Some backslash
  else if (c =? 47)%N then Some 47%N
  else if (c =? 98)%N then Some 8%N
  else if (c =? 102)%N then Some 12%N
  else if (c =? 110)%N then Some 10%N
  else if (c =? 114)%N then Some 13%N
  else if (c =? 116)%N then Some 9%N
  else None.

Definition is_high (c : N) : bool := ((55296 <=? c) && (c <=? 56319))%N.
Definition is_low (c : N) : bool := ((56320 <=? c) && (c <=? 57343))%N.

Definition then_ (c : N) (r : option (pystr * pystr)) : option (pystr * pystr) :=
  match r with Some (s, rest) => Some (c :: s, rest) | None => None end.

(** decoder.py py_scanstring, after the opening quote: the string and the rest of the text *)
Fixpoint scan_string (s : pystr) : option (pystr * pystr) :=
  match s with
  | [] => None
  | c :: r =>
      if (c =? quote)%N then Some ([], r)
      else if (c =? backslash)%N then
        match r with
        | [] => None
        | e :: r1 =>
            if (e =? 117)%N then
              match r1 with
              | a :: b :: c :: d :: r2 =>
                  match hex4 a b c d with
                  | None => None
                  | Some x =>
                      match r2 with
                      | p :: q :: a' :: b' :: c' :: d' :: r3 =>
                          if is_high x && (p =? backslash)%N && (q =? 117)%N then
                            match hex4 a' b' c' d' with
                            | None => None
                            | Some y =>
                                if is_low y
                                then then_ (65536 + (x - 55296) * 1024 + (y - 56320))%N (scan_string r3)
                                else then_ x (scan_string r2)
                            end
                          else then_ x (scan_string r2)
                      | _ => then_ x (scan_string r2)
                      end
                  end
              | _ => None
              end
            else match unescape e with Some x => then_ x (scan_string r1) | None => None end
        end
      else if (c <? 32)%N then None
      else then_ c (scan_string r)
  end.

(** scanner.py NUMBER_RE: an integer without leading zeros, an optional fraction, an optional exponent *)
Fixpoint span_digits (s : pystr) : pystr * pystr :=
  match s with
  | c :: r => if is_digit c then let (a, b) := span_digits r in (c :: a, b) else ([], s)
  | [] => ([], [])
  end.

Definition scan_nat (s : pystr) : option (pystr * pystr) :=
  match s with
  | c :: r => if (c =? 48)%N then Some ([c], r)
              else if is_digit c then Some (span_digits s) else None
  | [] => None
  end.
Definition scan_integer (s : pystr) : option (pystr * pystr) :=
  match s with
  | c :: r => if (c =? 45)%N then match scan_nat r with Some (a, b) => Some (c :: a, b) | None => None end
              else scan_nat s
  | [] => None
  end.
Definition scan_fraction (s : pystr) : pystr * pystr :=
  match s with
  | c :: r => if (c =? 46)%N then match span_digits r with ([], _) => ([], s) | (a, b) => (c :: a, b) end else ([], s)
  | [] => ([], s)
  end.
Definition scan_sign (s : pystr) : pystr * pystr :=
  match s with
  | c :: r => if ((c =? 43) || (c =? 45))%N then ([c], r) else ([], s)
  | [] => ([], s)
  end.
Definition scan_exponent (s : pystr) : pystr * pystr :=
  match s with
  | c :: r => if ((c =? 101) || (c =? 69))%N then
                let (g, r1) := scan_sign r in
                match span_digits r1 with ([], _) => ([], s) | (a, b) => (c :: g ++ a, b) end
              else ([], s)
  | [] => ([], s)
  end.
Definition scan_number (s : pystr) : option (json * pystr) :=
  match scan_integer s with
  | None => None
  | Some (i, r) =>
      let (f, r1) := scan_fraction r in
      let (e, r2) := scan_exponent r1 in
      match f ++ e with
      | [] => match int_of i with Some z => Some (JInt z, r) | None => None end
      | fe => Some (JFloat (Finite (i ++ fe)), r2)
      end
  end.

(** The rest of the text after a literal. *)
Fixpoint after_literal (l s : pystr) : option pystr :=
  match l, s with
  | [], _ => Some s
  | a :: l, b :: s => if (a =? b)%N then after_literal l s else None
  | _ :: _, [] => None
  end.

Definition scan_scalar (s : pystr) : option (json * pystr) :=
  match after_literal (u "null") s with
  | Some r => Some (JNull, r)
  | None =>
  match after_literal (u "true") s with
  | Some r => Some (JBool true, r)
  | None =>
  match after_literal (u "false") s with
  | Some r => Some (JBool false, r)
  | None =>
  match scan_number s with
  | Some x => Some x
  | None =>
  match after_literal (u "NaN") s with
  | Some r => Some (JFloat NaN, r)
  | None =>
  match after_literal (u "Infinity") s with
  | Some r => Some (JFloat (Infinity false), r)
  | None =>
  match after_literal (u "-Infinity") s with
  | Some r => Some (JFloat (Infinity true), r)
  | None => None
  end end end end end end end.

(** scanner.py _scan_once, with decoder.py JSONArray and JSONObject.  [fuel] bounds the nesting and
    the number of elements; [loads] gives enough of it (JsonProofs.v). *)
Fixpoint scan (fuel : nat) (s : pystr) : option (json * pystr) :=
  match fuel with
  | 0 => None
  | S fuel =>
      match s with
      | [] => None
      | c :: r =>
          if (c =? quote)%N then match scan_string r with Some (x, rest) => Some (JStr x, rest) | None => None end
          else if (c =? 123)%N then
            match skip_ws r with
            | [] => None
            | d :: r1 =>
                if (d =? 125)%N then Some (JObj [], r1)
                else match scan_pairs fuel (d :: r1) with Some (l, rest) => Some (JObj l, rest) | None => None end
            end
          else if (c =? 91)%N then
            match skip_ws r with
            | [] => None
            | d :: r1 =>
                if (d =? 93)%N then Some (JArr [], r1)
                else match scan_items fuel (d :: r1) with Some (l, rest) => Some (JArr l, rest) | None => None end
            end
          else scan_scalar s
      end
  end
with scan_items (fuel : nat) (s : pystr) : option (list json * pystr) :=
  match fuel with
  | 0 => None
  | S fuel =>
      match scan fuel s with
      | None => None
      | Some (x, r) =>
          match skip_ws r with
          | [] => None
          | d :: r1 =>
              if (d =? 93)%N then Some ([x], r1)
              else if (d =? 44)%N then
                match scan_items fuel (skip_ws r1) with Some (l, rest) => Some (x :: l, rest) | None => None end
              else None
          end
      end
  end
with scan_pairs (fuel : nat) (s : pystr) : option (list (pystr * json) * pystr) :=
  match fuel with
  | 0 => None
  | S fuel =>
      match s with
      | [] => None
      | c :: r =>
          if (c =? quote)%N then
            match scan_string r with
            | None => None
            | Some (k, r1) =>
                match skip_ws r1 with
                | [] => None
                | d :: r2 =>
                    if (d =? 58)%N then
                      match scan fuel (skip_ws r2) with
                      | None => None
                      | Some (x, r3) =>
                          match skip_ws r3 with
                          | [] => None
                          | e :: r4 =>
                              if (e =? 125)%N then Some ([(k, x)], r4)
                              else if (e =? 44)%N then
                                match scan_pairs fuel (skip_ws r4) with
                                | Some (l, rest) => Some ((k, x) :: l, rest)
                                | None => None
                                end
                              else None
                          end
                      end
                    else None
                end
            end
          else None
      end
  end.

(** decoder.py decode: nothing but white space may follow. *)
Definition loads (s : pystr) : option json :=
  match scan (S (length s)) (skip_ws s) with
  | Some (j, r) => match skip_ws r with [] => Some j | _ => None end
  | None => None
  end.

(** ** Text files *)

(** for line in open(fname, "r"): universal newlines, each line with its end (a line feed), the last
    one perhaps without. *)
Fixpoint file_lines (s : pystr) : list pystr :=
  match s with
  | [] => []
  | c :: r =>
      if (c =? 10)%N then [10%N] :: file_lines r
      else if (c =? 13)%N then
        [10%N] :: match r with
                  | d :: r' => if (d =? 10)%N then file_lines r' else file_lines r
                  | [] => []
                  end
      else match file_lines r with
           | l :: ls => (c :: l) :: ls
           | [] => [[c]]
           end
  end.
