(** Specification: sizes of committed values, and double spending as an event. *)
From Verif Require Import Base MpcAtoms MpcTree MpcBlock Engine Seals Api Strict.
From Verif Require Import SpecHash SpecValid SpecCommit SpecCodec SpecEngine SpecEnd.
Local Open Scope nat_scope.

(** Twice the number of leaves and two more for every Merkle field of a sequence *)
Fixpoint hash_work (fs : list field) : nat :=
  match fs with
  | [] => 0
  | FMerkle _ ls :: r => (2 * length ls + 2) + hash_work r
  | _ :: r => hash_work r
  end.

(** The fields are committed to by hashing at most [n] bytes, and their Merkle fields have few leaves. *)
Definition small (H : Hasher) (n k : nat) (tag : list byte) (fs : list field) : Prop :=
  hash_work fs <= k /\ exists bs, Forall2 (@feeds H) fs bs /\ length (@s_pre H tag (concat bs)) <= n.

(** An implementation of CommitEncode feeds these fields. *)
Definition feeds_fields {Op} (H : Hasher) (tag : list byte) (fields : Op -> list field) (I : commit_encode Op) : Prop :=
  ce_tag I = tag /\ forall d v, ce_encode I d v (@engine_new H tag) = @run H d (fields v) (@engine_new H tag).

(** Two clients, who trust only seals closed on one medium, find valid two histories in which the same seal is closed
    over [op] and over [op']. *)
Section Spend.
Context (Op Seal Pub PubId PubErr CliErr Issue Fail Warn Info Res : Type).
Definition spent_twice (H : Hasher) (I : commit_encode Op) (pid : bytes32) (op : Op) (pf : merkle_proof) (op' : Op) (pf' : merkle_proof) : Prop :=
  exists (medium : Seal -> option Pub) (P : seal_protocol Seal bytes32 Pub merkle_proof bytes32 PubId PubErr CliErr)
    md md' (resolve resolve' : Res -> claim Op Seal Pub -> result unit Issue * Res)
    (self self' : client_data Issue Fail Warn Info (claim Op Seal Pub)) items items' r r' s pub pub',
  (forall w x c, sl_convolve P w x = Ok c -> exists d, @convolve H d w pid x = Ret (Ok c)) /\
  (forall pub p q v w, sl_verify_commitment P pub p = Ok v -> sl_verify_commitment P pub q = Ok w -> p = q) /\
  @trusts_only_closed H Op Seal Pub PubId PubErr CliErr medium P md I Issue Res resolve /\
  @trusts_only_closed H Op Seal Pub PubId PubErr CliErr medium P md' I Issue Res resolve' /\
  status_validity (fst (client_side_validate resolve self items r)) = Valid /\
  status_validity (fst (client_side_validate resolve' self' items' r')) = Valid /\
  claims items (s, op, (pub, pf)) /\ claims items' (s, op', (pub', pf')).
End Spend.
