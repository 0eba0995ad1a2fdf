(** Specification: a history sent as bytes over a channel which nobody controls. *)
From Verif Require Import Base OrdMap MpcAtoms MpcTree MpcBlock Engine Seals Api Strict.
From Verif Require Import SpecHash SpecValid SpecCommit SpecCodec SpecEngine SpecEnd.
Local Open Scope nat_scope.

Section Transfer.
Context {Op Seal Pub : Type} (cs : codec Seal) (co : codec Op) (cp : codec Pub).

(** A consignment is a list of claims, written with strict encoding: seal, operation, seal witness with a Merkle proof. *)
Definition c_consignment : codec (list (claim Op Seal Pub)) :=
  c_vec 2 0 0xFFFF (c_pair (c_pair cs co) (c_seal_witness cp c_merkle_proof)).

(** Claims whose parts can be written *)
Definition writable (vs : Seal -> Prop) (vo : Op -> Prop) (vp : Pub -> Prop) (xs : list (claim Op Seal Pub)) : Prop :=
  (N.of_nat (length xs) <= 65535)%N /\ forall s op pub pf, In (s, op, (pub, pf)) xs -> vs s /\ vo op /\ vp pub.

(** One data item for each claim, with no reports of its own *)
Definition history {Issue Fail Warn Info} (xs : list (claim Op Seal Pub)) : list (client_data Issue Fail Warn Info (claim Op Seal Pub)) :=
  map (fun x => ClientData [x] status_new) xs.

(** What a client says about bytes received: [None] if they are not exactly one consignment, otherwise the verdict of
    the validation. *)
Definition receive {Issue Res} Fail Warn Info (resolve : Res -> claim Op Seal Pub -> result unit Issue * Res) (r : Res) (bs : list byte)
  : option validity :=
  match dec c_consignment bs with
  | Some (xs, []) => Some (status_validity (fst (client_side_validate (Fail := Fail) (Warn := Warn) (Info := Info)
                             resolve (ClientData [] status_new) (history xs) r)))
  | _ => None
  end.
End Transfer.

(** A claim was made honestly: the operation's id is one of the messages of a tree, its commitment is published for the seal, the
    proof is the one extracted from the tree. [source] says which messages are committed to for a seal, given the id. *)
Definition transferred {Op Seal Pub PubId PubErr CliErr} (H : Hasher) (medium : Seal -> option Pub)
    (P : seal_protocol Seal bytes32 Pub merkle_proof bytes32 PubId PubErr CliErr) (md : mode) (I : commit_encode Op) (pid : bytes32)
    (source : Seal -> bytes32 -> multi_source * option N) (D : nat) (x : claim Op Seal Pub) : Prop :=
  let '(s, op, (pub, pf)) := x in
  exists id t c, @commit_id H Op md I op = Ret id /\ valid_source (fst (source s id)) /\ In (pid, id) (ms_messages (fst (source s id))) /\
    try_commit (fst (source s id)) (snd (source s id)) = Ret (Ok t) /\ mt_depth t <= D /\ @tree_commit_id H md t = Ret c /\
    @to_merkle_proof H md (block_of_tree t) pid = Ret (Ok pf) /\ medium s = Some pub /\
    sl_verify_commitment P pub c = Ok tt /\ sl_is_included P s id (pub, pf) = true.

(** A client, who trusts only seals closed on the medium used by the sender, accepts the bytes [bs] for the same seals, although they
    are not the bytes sent. *)
Definition tampered {Op Seal Pub} PubId PubErr CliErr Issue Fail Warn Info Res (H : Hasher) (cs : codec Seal) (co : codec Op) (cp : codec Pub)
    (I : commit_encode Op) (pid : bytes32) (source : Seal -> bytes32 -> multi_source * option N) (D : nat)
    (orders : list (Seal * Op)) (bs : list byte) : Prop :=
  exists (medium : Seal -> option Pub) (P : seal_protocol Seal bytes32 Pub merkle_proof bytes32 PubId PubErr CliErr)
    md md' (resolve : Res -> claim Op Seal Pub -> result unit Issue * Res) r sent read,
  (forall w x c, sl_convolve P w x = Ok c -> exists d, @convolve H d w pid x = Ret (Ok c)) /\
  (forall pub p q v w, sl_verify_commitment P pub p = Ok v -> sl_verify_commitment P pub q = Ok w -> p = q) /\
  @trusts_only_closed H Op Seal Pub PubId PubErr CliErr medium P md' I Issue Res resolve /\
  map fst sent = orders /\ (forall x, In x sent -> transferred H medium P md I pid source D x) /\
  dec (c_consignment cs co cp) bs = Some (read, []) /\ map (fun x => fst (fst x)) read = map fst orders /\
  receive cs co cp Fail Warn Info resolve r bs = Some Valid /\ bs <> enc (c_consignment cs co cp) sent.
