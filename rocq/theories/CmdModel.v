(** The command line: src/ezmsg/core/commands (addresses, [serve], [start], the dashboard's place, links to drawings).

    Simplifications: of argparse only the two options of [serve] with their values, without abbreviations, and with negative integers
    (not fractions) as the only values that may begin with "-"; the dashboard server is what start_dashboard_server is asked
    for; json.dumps and zlib are arbitrary functions; what is logged is left out. *)
From Coq Require Import String Ascii.
From Coq Require Import List Arith NArith ZArith Bool Strings.Byte.
From Verif Require Import CodecModel AddressModel.
Import ListNotations.
Local Open Scope nat_scope.

(** A literal of the source. *)
Definition text (s : string) : pystr := map N_of_ascii (list_ascii_of_string s).

Fixpoint str_eqb (a b : pystr) : bool :=
  match a, b with [], [] => true | x :: a, y :: b => N.eqb x y && str_eqb a b | _, _ => false end.

(** s.startswith(p): what follows. *)
Fixpoint after (p s : pystr) : option pystr :=
  match p, s with
  | [], _ => Some s
  | x :: p, y :: s => if N.eqb x y then after p s else None
  | _ :: _, [] => None
  end.

(** --dashboard: not given, given, given with a port. *)
Inductive dash := NoDash | AnyPort | OnPort (z : Z).
Record cargs := { address_arg : option pystr; dashboard_arg : dash }.
Definition no_args : cargs := {| address_arg := None; dashboard_arg := NoDash |}.
Definition with_address (a : cargs) (s : pystr) : cargs := {| address_arg := Some s; dashboard_arg := dashboard_arg a |}.
Definition with_dash (a : cargs) (d : dash) : cargs := {| address_arg := address_arg a; dashboard_arg := d |}.

(** Whether argparse takes a word for an option. *)
Definition option_like (s : pystr) : bool :=
  match s with c :: ((_ :: _) as r) => N.eqb c 45 && negb (forallb is_digit r) | _ => false end.

(** commands/common.py 7-8, commands/dashboard.py 25-37, with parse_args: [None] is a usage error. *)
Fixpoint parse_serve (l : list pystr) (a : cargs) : option cargs :=
  match l with
  | [] => Some a
  | t :: r =>
      match after (text "--address=") t with
      | Some s => parse_serve r (with_address a s)
      | None =>
      match after (text "--dashboard=") t with
      | Some s => match int_of s with Some z => parse_serve r (with_dash a (OnPort z)) | None => None end
      | None =>
      if str_eqb t (text "--address") then
        match r with
        | v :: r' => if option_like v then None else parse_serve r' (with_address a v)
        | [] => None
        end
      else if str_eqb t (text "--dashboard") then
        match r with
        | v :: r' =>
            if option_like v then parse_serve r (with_dash a AnyPort)
            else match int_of v with Some z => parse_serve r' (with_dash a (OnPort z)) | None => None end
        | [] => Some (with_dash a AnyPort)
        end
      else None
      end end
  end.

(** os.environ: EZMSG_GRAPHSERVER_ADDR, EZMSG_DASHBOARD_ADDR; whether ezmsg-dashboard can be imported. *)
Record environ := { graph_env : option pystr; dash_env : option pystr; installed : bool }.

(** commands/common.py 23-26, graphserver.py 1794-1796: [None] is ValueError. *)
Definition graph_address (e : environ) (a : cargs) : option address :=
  match address_arg a with
  | Some s => from_string s
  | None => from_string (match graph_env e with Some s => s | None => text "127.0.0.1:25978" end)
  end.

(** commands/dashboard.py 47-59 *)
Definition dashboard_address (e : environ) (g : address) (port : option Z) : option address :=
  match match dash_env e with Some s => from_string s | None => Some (fst g, (snd g + 1)%Z) end with
  | Some (h, p) => Some (h, match port with Some q => q | None => p end)
  | None => None
  end.

(** commands/start.py 20-32: the arguments after "serve" of the process started; [Some None]: a warning and nothing else. *)
Definition start_child (e : environ) (a : cargs) : option (option (list pystr)) :=
  match graph_address e a with
  | None => None
  | Some g =>
      let first := text "--address=" ++ str_address g in
      match dashboard_arg a with
      | NoDash => Some (Some [first])
      | AnyPort => if installed e then Some (Some [first; text "--dashboard"]) else Some None
      | OnPort z => if installed e then Some (Some [first; text "--dashboard"; str_int z]) else Some None
      end
  end.

Inductive effect := Created (g : address) | DashStarted (d : address) | DashStopped | Stopped.
Inductive ending := Ended | Interrupted | Failed.

(** What happens to a server. *)
Record life := { create_ok : address -> bool; dash_ok : address -> bool; join_ends : ending; dash_stop_ok : bool }.

(** commands/serve.py 17-40: what is done, and whether it ends without an exception. *)
Definition handle_serve (e : environ) (l : life) (a : cargs) : list effect * bool :=
  match graph_address e a with
  | None => ([], false)
  | Some g =>
      if negb (create_ok l g) then ([], false)
      else
        let join_fine := match join_ends l with Failed => false | _ => true end in
        let port := match dashboard_arg a with OnPort z => Some z | _ => None end in
        match dashboard_arg a with
        | NoDash => ([Created g; Stopped], join_fine)
        | _ =>
            if negb (installed e) then ([Created g; Stopped], true)
            else match dashboard_address e g port with
                 | None => ([Created g; Stopped], false)
                 | Some d =>
                     if negb (dash_ok l d) then ([Created g; Stopped], false)
                     else if dash_stop_ok l then ([Created g; DashStarted d; DashStopped; Stopped], join_fine)
                     else ([Created g; DashStarted d], false)
                 end
        end
  end.

(** run_command's [dashboard]: None, a bool or an int. *)
Inductive dash_value := DNone | DBool (b : bool) | DInt (z : Z).
(** serve.py 25-26, start.py 23-31: what is not None asks for a dashboard, an int (not a bool) on that port. *)
Definition dash_of (v : dash_value) : dash := match v with DNone => NoDash | DBool _ => AnyPort | DInt z => OnPort z end.

(** core/command.py 74-112: the Namespace made by run_command. *)
Definition command_args (g : address) (v : dash_value) : cargs := {| address_arg := Some (str_address g); dashboard_arg := dash_of v |}.
(** run_command("serve", ...) *)
Definition run_serve (e : environ) (l : life) (g : address) (v : dash_value) : list effect * bool := handle_serve e l (command_args g v).
(** run_command("start", ...): the words of the process started. *)
Definition run_start (e : environ) (g : address) (v : dash_value) : option (option (list pystr)) := start_child e (command_args g v).

(** base64.b64encode *)
Definition alphabet : pystr := text "ABCDEFGHIJKLMNOPQRSTUVWXYZabcdefghijklmnopqrstuvwxyz0123456789+/".
Definition digit (n : N) : N := nth (N.to_nat n) alphabet 0%N.
Definition equals : N := 61%N.
Fixpoint b64encode (b : bytes) : pystr :=
  match b with
  | [] => []
  | [x] => let x := Byte.to_N x in [digit (x / 4); digit (x mod 4 * 16); equals; equals]
  | [x; y] => let x := Byte.to_N x in let y := Byte.to_N y in [digit (x / 4); digit (x mod 4 * 16 + y / 16); digit (y mod 16 * 4); equals]
  | x :: y :: z :: r =>
      let x := Byte.to_N x in let y := Byte.to_N y in let z := Byte.to_N z in
      digit (x / 4) :: digit (x mod 4 * 16 + y / 16) :: digit (y mod 16 * 4 + z / 64) :: digit (z mod 64) :: b64encode r
  end%N.

Section Links.
Context (dumps : pystr -> pystr)      (* json.dumps of the object with the drawing in it *)
        (deflate : bytes -> bytes).   (* zlib *)

(** commands/mermaid.py 11-43: [None] is an exception. *)
Definition mermaid_url (graph target : pystr) : option pystr :=
  let ink := str_eqb target (text "ink") in
  match utf8_encode (if ink then graph else dumps graph) with
  | None => None
  | Some b =>
      let s := b64encode (if ink then b else deflate b) in
      if ink then Some (text "https://mermaid.ink/img/" ++ s)
      else if str_eqb target (text "live") then Some (text "https://mermaid.live/edit#pako:" ++ s)
      else if str_eqb target (text "play") then Some (text "https://www.mermaidchart.com/play#pako:" ++ s)
      else None
  end.

(** commands/mermaid.py 46-60, the drawing given: what is printed and opened, and whether it ends without an exception. *)
Inductive shown := Printed (t : pystr) | Opened (url : pystr).
Definition hint : pystr := text "%% If the graph does not render immediately, try toggling the 'Pan & Zoom' button.".
Definition handle_mermaid (graph : pystr) (nobrowser : bool) (target : pystr) : list shown * bool :=
  if nobrowser then ([Printed graph], true)
  else
    let out := if str_eqb target (text "live") then [Printed graph; Printed hint] else [Printed graph] in
    match mermaid_url graph target with
    | Some u => (out ++ [Opened u], true)
    | None => (out, false)
    end.
End Links.
