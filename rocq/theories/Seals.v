(** single_use_seals/src/lib.rs *)
From Verif Require Import Base Strict Merkle MpcAtoms MpcTree MpcBlock.

(** lib.rs:151-162, 164-180, 203-217: an implementation of SingleUseSeal with its
    published and client-side witness types. [is_included] gets the whole witness. *)
Record seal_protocol (Seal Msg Pub Cli Proof PubId PubErr CliErr : Type) : Type := SealProtocol {
  sl_is_included : Seal -> Msg -> Pub * Cli -> bool;      (* SingleUseSeal::is_included *)
  sl_convolve : Cli -> Msg -> result Proof CliErr;        (* ClientSideWitness::convolve_commit *)
  sl_pub_id : Pub -> PubId;                               (* PublishedWitness::pub_id *)
  sl_verify_commitment : Pub -> Proof -> result unit PubErr
}.
Arguments SealProtocol {Seal Msg Pub Cli Proof PubId PubErr CliErr}.
Arguments sl_is_included {Seal Msg Pub Cli Proof PubId PubErr CliErr}.
Arguments sl_convolve {Seal Msg Pub Cli Proof PubId PubErr CliErr}.
Arguments sl_pub_id {Seal Msg Pub Cli Proof PubId PubErr CliErr}.
Arguments sl_verify_commitment {Seal Msg Pub Cli Proof PubId PubErr CliErr}.

(** lib.rs:285-290 *)
Inductive seal_error (Seal PubId PubErr CliErr : Type) : Type :=
| SeNotIncluded (s : Seal) (id : PubId)
| SePublished (e : PubErr)
| SeClient (e : CliErr).
Arguments SeNotIncluded {Seal PubId PubErr CliErr}.
Arguments SePublished {Seal PubId PubErr CliErr}.
Arguments SeClient {Seal PubId PubErr CliErr}.

Section Seals.
Context {Seal Msg Pub Cli Proof PubId PubErr CliErr : Type}.
Context (P : seal_protocol Seal Msg Pub Cli Proof PubId PubErr CliErr).

(** lib.rs:245-251 [SealWitness::new]: the pair of witnesses. *)
Definition witness_new (published : Pub) (client : Cli) : Pub * Cli := (published, client).

(** lib.rs:267-272: the loop over seals; [None]: all included. *)
Fixpoint check_included (w : Pub * Cli) (seals : list Seal) (message : Msg)
  : option (seal_error Seal PubId PubErr CliErr) :=
  match seals with
  | [] => None
  | s :: r => if sl_is_included P s message w then check_included w r message
              else Some (SeNotIncluded s (sl_pub_id P (fst w)))
  end.

(** lib.rs:261-282 [SealWitness::verify_seals_closing] *)
Definition verify_seals_closing (w : Pub * Cli) (seals : list Seal) (message : Msg)
  : result unit (seal_error Seal PubId PubErr CliErr) :=
  match check_included w seals message with
  | Some e => Err e
  | None =>
      match sl_convolve P (snd w) message with
      | Err e => Err (SeClient e)
      | Ok f_msg =>
          match sl_verify_commitment P (fst w) f_msg with
          | Err e => Err (SePublished e)
          | Ok u => Ok u
          end
      end
  end.

(** lib.rs:253-259 *)
Definition verify_seal_closing (w : Pub * Cli) (seal : Seal) (message : Msg)
  : result unit (seal_error Seal PubId PubErr CliErr) :=
  verify_seals_closing w [seal] message.

End Seals.

(** lib.rs:182-201 [NoWitness]: no data, all values equal. *)
Definition no_witness : Set := unit.
Definition no_witness_eq (a b : no_witness) : bool := true.
Definition no_witness_convolve {Msg} (w : no_witness) (msg : Msg) : result Msg Empty_set := Ok msg.
Definition no_witness_merge (a b : no_witness) : result no_witness Empty_set := Ok a.

(** lib.rs:219-240: derived StrictEncode/StrictDecode of [SealWitness]: the two witnesses in order; the phantom
    field is skipped. *)
Definition c_seal_witness {Pub Cli} (cp : codec Pub) (cc : codec Cli) : codec (Pub * Cli) := c_pair cp cc.

Section Errors.
Context {Seal PubId PubErr CliErr : Type}.
Context (show_seal : Seal -> string) (show_id : PubId -> string) (show_pub : PubErr -> string) (show_cli : CliErr -> string).

(** lib.rs:306-316: Display of [SealError] *)
Definition seal_error_text (e : seal_error Seal PubId PubErr CliErr) : string :=
  match e with
  | SeNotIncluded s id => ("seal " ++ show_seal s ++ " is not included in the witness " ++ show_id id)%string
  | SePublished x => show_pub x
  | SeClient x => show_cli x
  end.

(** lib.rs:318-330: [Error::source] *)
Definition seal_error_source (e : seal_error Seal PubId PubErr CliErr) : option (PubErr + CliErr) :=
  match e with
  | SeNotIncluded _ _ => None
  | SePublished x => Some (inl x)
  | SeClient x => Some (inr x)
  end.

(** lib.rs:292-304: Debug of [SealError], from the Debug texts of the parts; [debug_tuple] writes the name and the
    fields in parentheses, separated by a comma and a space (the form on one line, without the alternate flag). *)
Definition debug_tuple (name : string) (fields : list string) : string :=
  (name ++ "(" ++ String.concat ", " fields ++ ")")%string.
Definition seal_error_debug (e : seal_error Seal PubId PubErr CliErr) : string :=
  match e with
  | SeNotIncluded s id => debug_tuple "SealError::NotIncluded" [show_seal s; show_id id]
  | SePublished x => debug_tuple "SealError::Published" [show_pub x]
  | SeClient x => debug_tuple "SealError::Client(err" [show_cli x]
  end.

End Errors.
