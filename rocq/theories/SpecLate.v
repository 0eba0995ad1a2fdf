(** Specification: replacing a value, a list or an operation which was committed to beforehand. *)
From Verif Require Import Base OrdMap MpcAtoms MpcTree MpcBlock Engine Seals Api Strict.
From Verif Require Import SpecHash SpecValid SpecCommit SpecCodec SpecEngine SpecEnd SpecIdGame.
Local Open Scope nat_scope.

(** [op] was published: [source] says which messages are committed to, given the id of [op]; the id is one of them, under [pid],
    and the commitment is [c]. *)
Definition published {Op} (H : Hasher) (I : commit_encode Op) (op : Op) (pid : bytes32) (source : bytes32 -> multi_source * option N)
    (D : nat) (c : bytes32) : Prop :=
  exists md id t, @commit_id H Op md I op = Ret id /\ valid_source (fst (source id)) /\ In (pid, id) (ms_messages (fst (source id))) /\
    try_commit (fst (source id)) (snd (source id)) = Ret (Ok t) /\ mt_depth t <= D /\ @tree_commit_id H md t = Ret c.

(** A client, who trusts only seals closed on a medium, finds valid a history in which a seal, for which the medium has a
    witness with the commitment [c], is closed over [op]. *)
Section Accept.
Context (Op Seal Pub PubId PubErr CliErr Issue Fail Warn Info Res : Type).
Definition accepted_for (H : Hasher) (I : commit_encode Op) (pid c : bytes32) (op : Op) (pf : merkle_proof) : Prop :=
  exists (medium : Seal -> option Pub) (P : seal_protocol Seal bytes32 Pub merkle_proof bytes32 PubId PubErr CliErr)
    md (resolve : Res -> claim Op Seal Pub -> result unit Issue * Res)
    (self : client_data Issue Fail Warn Info (claim Op Seal Pub)) items r s pub pub0 v,
  (forall w x c, sl_convolve P w x = Ok c -> exists d, @convolve H d w pid x = Ret (Ok c)) /\
  (forall pub p q v w, sl_verify_commitment P pub p = Ok v -> sl_verify_commitment P pub q = Ok w -> p = q) /\
  @trusts_only_closed H Op Seal Pub PubId PubErr CliErr medium P md I Issue Res resolve /\
  status_validity (fst (client_side_validate resolve self items r)) = Valid /\ claims items (s, op, (pub, pf)) /\
  medium s = Some pub0 /\ sl_verify_commitment P pub0 c = Ok v.
End Accept.
