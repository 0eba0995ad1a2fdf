(** src/api.rs *)
From Verif Require Import Base.

(** api.rs:26-44 *)
Inductive validity : Set := Valid | SealIssues | Invalid.

(** api.rs:27-43: #[repr(u8)] discriminants; derived PartialOrd/Ord of a field-less enum
    compares them. *)
Definition discriminant (v : validity) : N :=
  match v with Valid => 1 | SealIssues => 0xFF | Invalid => 0 end.
Definition validity_cmp (a b : validity) : comparison := N.compare (discriminant a) (discriminant b).

Section Api.
(** api.rs:93-131 [ValidationReport]: the four entry types. *)
Context {Issue Fail Warn Info : Type}.

(** api.rs:133-167 *)
Record status : Type := Status {
  seal_issues : list Issue;
  failures : list Fail;
  warnings : list Warn;
  info : list Info
}.

(** api.rs:169-178 *)
Definition add_assign (self rhs : status) : status :=
  Status (seal_issues self ++ seal_issues rhs) (failures self ++ failures rhs)
         (warnings self ++ warnings rhs) (info self ++ info rhs).

(** api.rs:180-191 *)
Definition status_from_iter (l : list Fail) : status := Status [] l [] [].
(** api.rs:197-204 *)
Definition status_new : status := Status [] [] [] [].
(** api.rs:208-215 *)
Definition from_failure (f : Fail) : status := Status [] [f] [] [].
(** api.rs:218-221 *)
Definition add_seal_issue (s : status) (x : Issue) : status :=
  Status (seal_issues s ++ [x]) (failures s) (warnings s) (info s).
(** api.rs:224-227 *)
Definition add_failure (s : status) (x : Fail) : status :=
  Status (seal_issues s) (failures s ++ [x]) (warnings s) (info s).
(** api.rs:231-234 *)
Definition add_warning (s : status) (x : Warn) : status :=
  Status (seal_issues s) (failures s) (warnings s ++ [x]) (info s).
(** api.rs:239-242 *)
Definition add_info (s : status) (x : Info) : status :=
  Status (seal_issues s) (failures s) (warnings s) (info s ++ [x]).

Definition is_empty {A} (l : list A) : bool := match l with [] => true | _ => false end.

(** api.rs:252-260 *)
Definition status_validity (s : status) : validity :=
  if negb (is_empty (failures s)) then Invalid
  else if negb (is_empty (seal_issues s)) then SealIssues
  else Valid.

(** api.rs:334-361 [ClientData]: what one data item offers. *)
Record client_data (Seal : Type) : Type := ClientData {
  cd_seals : list Seal;          (* single_use_seals() *)
  cd_consistency : status        (* validate_internal_consistency() *)
}.
Arguments ClientData {Seal}.
Arguments cd_seals {Seal}.
Arguments cd_consistency {Seal}.

Section Validate.
Context {Seal Res : Type}.
(** api.rs:377-391 [SealResolver::resolve_trust(&mut self, seal)]: result and new state *)
Context (resolve_trust : Res -> Seal -> result unit Issue * Res).

(** api.rs:315-319: the inner loop *)
Fixpoint validate_seals (st : status) (r : Res) (seals : list Seal) : status * Res :=
  match seals with
  | [] => (st, r)
  | s :: rest =>
      let '(res, r') := resolve_trust r s in
      let st' := match res with Ok _ => st | Err issue => add_seal_issue st issue end in
      validate_seals st' r' rest
  end.

(** api.rs:314-321: the outer loop *)
Fixpoint validate_items (st : status) (r : Res) (items : list (client_data Seal)) : status * Res :=
  match items with
  | [] => (st, r)
  | it :: rest =>
      let '(st1, r1) := validate_seals st r (cd_seals it) in
      validate_items (add_assign st1 (cd_consistency it)) r1 rest
  end.

(** api.rs:303-326 [ClientSideValidate::client_side_validate]; [items] is what
    [self.validation_iter()] yields. Also returns the resolver (borrowed mutably). *)
Definition client_side_validate (self : client_data Seal) (items : list (client_data Seal)) (r : Res)
  : status * Res :=
  let st := status_new in
  let st := add_assign st (cd_consistency self) in
  validate_items st r items.

End Validate.
End Api.
Arguments status : clear implicits.
Arguments ClientData {Issue Fail Warn Info Seal}.
Arguments cd_seals {Issue Fail Warn Info Seal}.
Arguments cd_consistency {Issue Fail Warn Info Seal}.
Arguments client_data : clear implicits.
