(* Model of updating settings fields of a running unit:
     backendprocess.py:336-425  process_request_handler,
     backendprocess.py:500-515  report_settings_update_cb,
     backendprocess.py:740-805  handle_subscriber,
     processclient.py:226-281   _io_loop (one request at a time),
     graphcontext.py:460-483    update_settings (a full settings message),
   for one unit that has an INPUT_SETTINGS stream.

   [S] is the type of settings values and [U] of field updates (path and value);
   [patch] is _replace_settings_field (C38).  The unit's subscriber gets its messages from
   one queue, [u_inbox], in the order in which they were published.

   Simplifications: the unit and the handler run in one process, so that a
   broadcast puts the message in the subscriber's queue and returns without
   awaiting (pubclient.py:503-504), while creating the publisher (first use) and
   waiting for a free buffer (pubclient.py:490-497) come before that; the INPUT_SETTINGS stream is not leaky. *)

From Coq Require Import List.
Import ListNotations.

Section FieldUpdate.
Context {S U : Type} (patch : S -> U -> option S).

Record unit_state := mkUnit {
  u_current : option S;       (* current_settings[unit_address] *)
  u_inbox : list S;           (* published to INPUT_SETTINGS, not received yet *)
  u_received : list S;        (* given to the unit, oldest first *)
  u_pending : option (U * S)  (* patched, waiting to be broadcast *)
}.

(** backendprocess.py:456-457 — unit.SETTINGS, if any. *)
Definition start (settings : option S) : unit_state := mkUnit settings [] [] None.

Inductive event :=
| Message (m : S)      (* someone publishes a full settings message *)
| Request (u : U)      (* a field update reaches the handler *)
| Publish              (* the handler's broadcast goes out *)
| Abandon              (* the handler's broadcast raises *)
| Receive.             (* the unit's subscriber takes the next message *)

(** The answer to the field update [u]: the patched settings, or an error. *)
Inductive answer := Ok (u : U) (s : S) | Failed.

(** One atomic step and the answer it gives to a field update, if any. *)
Definition ustep (s : unit_state) (e : event) : option (unit_state * option answer) :=
  match e with
  | Message m => Some (mkUnit (u_current s) (u_inbox s ++ [m]) (u_received s) (u_pending s), None)
  | Request u =>
      match u_pending s with
      | Some _ => None                                  (* _io_loop is busy *)
      | None =>
          match u_current s with
          | None => Some (s, Some Failed)               (* 390-400 *)
          | Some c =>
              match patch c u with
              | None => Some (s, Some Failed)           (* 412-419 *)
              | Some p => Some (mkUnit (u_current s) (u_inbox s) (u_received s) (Some (u, p)), None)
              end
          end
      end
  | Publish =>
      match u_pending s with
      | Some (u, p) => Some (mkUnit (Some p) (u_inbox s ++ [p]) (u_received s) None, Some (Ok u p))
      | None => None
      end
  | Abandon =>
      match u_pending s with
      | Some _ => Some (mkUnit (u_current s) (u_inbox s) (u_received s) None, Some Failed)
      | None => None
      end
  | Receive =>
      match u_inbox s with
      | m :: r => Some (mkUnit (Some m) r (u_received s ++ [m]) (u_pending s), None)
      | [] => None
      end
  end.

(** What happened, with the answers given. *)
Notation happening := (event * option answer)%type.

Inductive urun (init : option S) : unit_state -> list happening -> Prop :=
| urun_start : urun init (start init) []
| urun_step s t e s' a : urun init s t -> ustep s e = Some (s', a) -> urun init s' (t ++ [(e, a)]).

End FieldUpdate.
Arguments unit_state : clear implicits.
Arguments event : clear implicits.
Arguments answer : clear implicits.
