(** Specification: a client follows a script of operations on bytes sent by an adversary. *)
From Verif Require Import Base Strict MpcAtoms MpcTree MpcBlock SpecHash SpecTree SpecFull SpecDerived SpecLocal.
Local Open Scope nat_scope.

(** The operations of [session] (SpecSession.v) with everything the adversary decides: the bytes, the claimed
    messages, the ids to keep and the order of things. *)
Inductive script :=
| ScBlock (bs : list byte)
| ScProof (bs : list byte) (pid msg : bytes32)
| ScConceal (s : script) (ids : list bytes32)
| ScMerge (s1 s2 : script)
| ScFeed (s : script) (bs : list byte)
| ScPath (s : script) (bs : list byte) (pid msg : bytes32)
| ScExtract (s : script) (pid : bytes32).

(** Number of bytes the client receives. *)
Fixpoint traffic (s : script) : nat :=
  match s with
  | ScBlock bs | ScProof bs _ _ => length bs
  | ScConceal s _ | ScExtract s _ => traffic s
  | ScMerge s1 s2 => traffic s1 + traffic s2
  | ScFeed s bs | ScPath s bs _ _ => traffic s + length bs
  end.

Section Script.
Context {H : Hasher}.

(** [follows md c s b]: the client trusting in [c] who goes through [s] ends up holding [b]. *)
Inductive follows (md : mode) (c : bytes32) : script -> merkle_block -> Prop :=
| fo_block bs b pt :
    dec c_merkle_block bs = Some (b, []) -> block_tree b pt -> block_commit_id md b = Ret c ->
    follows md c (ScBlock bs) b
| fo_proof bs pf pid msg b :
    dec c_merkle_proof bs = Some (pf, []) -> convolve md pf pid msg = Ret (Ok c) ->
    block_with pf pid msg = Ret (Ok b) ->
    follows md c (ScProof bs pid msg) b
| fo_conceal s b ids b' r :
    follows md c s b -> conceal_except md b ids = Ret (b', r) -> follows md c (ScConceal s ids) b'
| fo_merge s1 s2 b1 b2 b' r :
    follows md c s1 b1 -> follows md c s2 b2 -> merge_reveal md b1 b2 = Ret (b', r) ->
    follows md c (ScMerge s1 s2) b'
| fo_feed s b bs o pt b' r :
    follows md c s b -> dec c_merkle_block bs = Some (o, []) -> block_tree o pt ->
    merge_reveal md b o = Ret (b', r) ->
    follows md c (ScFeed s bs) b'
| fo_path s b bs pf pid msg b' r :
    follows md c s b -> dec c_merkle_proof bs = Some (pf, []) ->
    merge_reveal_path md b pf pid msg = Ret (b', r) ->
    follows md c (ScPath s bs pid msg) b'
| fo_extract s b p m pf b' :
    follows md c s b -> In (p, m) (known_leaves (mb_cross_section b)) ->
    to_merkle_proof md b p = Ret (Ok pf) -> block_with pf p m = Ret (Ok b') -> follows md c (ScExtract s p) b'.

(** What a client holding [b] for the commitment [c] to the tree [t] made of [src] must not see happen. *)
Inductive misled (md : mode) (src : multi_source) (t : merkle_tree) (c : bytes32) (b : merkle_block) : Prop :=
| ml_id : block_commit_id md b <> Ret c -> misled md src t c b
| ml_message p m : In (p, m) (known_leaves (mb_cross_section b)) -> ~ In (p, m) (ms_messages src) -> misled md src t c b
| ml_proof p m : In (p, m) (known_leaves (mb_cross_section b)) ->
    to_merkle_proof md b p <> to_merkle_proof md (block_of_tree t) p -> misled md src t c b
| ml_stuck ids k : conceal_except md b ids = Panic k -> misled md src t c b
| ml_disclosed ids b' n : conceal_except md b ids = Ret (b', Ok n) ->
    (forall n', conceal_except md (block_of_tree t) ids <> Ret (b', Ok n')) -> misled md src t c b
| ml_refused o : derived md t o -> (forall b' n, merge_reveal md b o <> Ret (b', Ok n)) -> misled md src t c b.

(** Two clients trusting in the same [c], which anyone may have made, and their blocks [b1] and [b2]. *)
Inductive at_odds (md : mode) (c : bytes32) (b1 b2 : merkle_block) : Prop :=
| od_id : block_commit_id md b1 <> Ret c -> at_odds md c b1 b2
| od_stuck ids k : conceal_except md b1 ids = Panic k -> at_odds md c b1 b2
| od_merge : (forall b' n, merge_reveal md b1 b2 <> Ret (b', Ok n)) -> at_odds md c b1 b2
| od_lost b' n p m : merge_reveal md b1 b2 = Ret (b', Ok n) ->
    ~ (In (p, m) (known_leaves (mb_cross_section b')) <->
       In (p, m) (known_leaves (mb_cross_section b1)) \/ In (p, m) (known_leaves (mb_cross_section b2))) -> at_odds md c b1 b2.

End Script.

(** No proofs are extracted: a dishonest tree may show a protocol at several places, where extraction is not guarded. *)
Fixpoint no_extract (s : script) : Prop :=
  match s with
  | ScBlock _ | ScProof _ _ _ => True
  | ScConceal s _ | ScFeed s _ | ScPath s _ _ _ => no_extract s
  | ScMerge s1 s2 => no_extract s1 /\ no_extract s2
  | ScExtract _ _ => False
  end.
