(** Specification: clients validating histories against one publication medium. *)
From Verif Require Import Base MpcAtoms MpcTree MpcBlock Engine Seals Api SpecValid SpecCommit.

Section End_.
Context {H : Hasher} {Op Seal Pub PubId PubErr CliErr : Type}.

(** A claim that an operation closes a seal, with the witness offered for it: what the validated data give
    to the resolver. The client-side witness is a Merkle proof. *)
Definition claim : Type := (Seal * Op * (Pub * merkle_proof))%type.

(** The medium: which witness was published for a seal, if any *)
Context (medium : Seal -> option Pub)
  (P : seal_protocol Seal bytes32 Pub merkle_proof bytes32 PubId PubErr CliErr)
  (md : mode) (I : commit_encode Op).

(** The published witness is the one of the medium and the seal is closed over the operation's id. *)
Definition closed_by (x : claim) : Prop :=
  let '(s, op, (pub, pf)) := x in
  valid_proof pf /\ medium s = Some pub /\
  exists id, commit_id md I op = Ret id /\ verify_seal_closing P (witness_new pub pf) s id = Ok tt.

Context {Issue Res : Type} (resolve : Res -> claim -> result unit Issue * Res).
Definition trusts_only_closed : Prop := forall r x u r', resolve r x = (Ok u, r') -> closed_by x.
Definition trusts_closed : Prop := forall r x, closed_by x -> exists r', resolve r x = (Ok tt, r').

End End_.
Arguments claim : clear implicits.

(** The items claim that [op] closes [s]. *)
Definition claims {Op Seal Pub Issue Fail Warn Info}
  (items : list (client_data Issue Fail Warn Info (claim Op Seal Pub))) (x : claim Op Seal Pub) : Prop :=
  exists it, In it items /\ In x (cd_seals it).
