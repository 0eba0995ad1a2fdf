(** Specification: what one can hold for a commitment [c] when blocks received from untrusted parties are merged in after a check
    which looks at depths only. *)
From Verif Require Import Base Strict MpcAtoms MpcTree MpcBlock SpecTree SpecFull SpecBlock SpecFuse SpecScript.
Local Open Scope nat_scope.

(** No node is deeper than the leaves, and the leaves below all the nodes can be counted with 32 bits. *)
Definition acceptable (b : merkle_block) : Prop :=
  shallow_nodes (mb_depth b) (mb_cross_section b) /\ (heights_sum (mb_depth b) (mb_cross_section b) < 2 ^ 32)%N.

Section Feed.
Context {H : Hasher}.

(** As [session] of SpecSession.v, but received blocks need not be well-formed. With debug assertions only the depths of the first
    block are checked. [L]: the strings hashed for what was received; those of a block are the strings of the tree at the
    beginning of its cross-section. *)
Inductive reception (md : mode) (c : bytes32) : list (list byte) -> merkle_block -> Prop :=
| rc_block bs b pt rest :
    dec c_merkle_block bs = Some (b, []) -> block_commit_id md b = Ret c ->
    shallow_nodes (mb_depth b) (mb_cross_section b) ->
    (md = Release -> heights_sum (mb_depth b) (mb_cross_section b) = (2 ^ N.of_nat (mb_depth b))%N) ->
    mb_cross_section b = flatten 0 pt ++ rest -> pwf_loose (mb_depth b) 0 pt ->
    reception md c (pcommit_pre (mb_depth b) (mb_cofactor b) pt) b
| rc_proof bs pf pid msg b :
    dec c_merkle_proof bs = Some (pf, []) -> convolve md pf pid msg = Ret (Ok c) ->
    block_with pf pid msg = Ret (Ok b) ->
    reception md c (proof_pre pf pid msg) b
| rc_conceal L b ids b' r :
    reception md c L b -> conceal_except md b ids = Ret (b', r) -> reception md c L b'
| rc_merge L1 L2 b1 b2 b' r :
    reception md c L1 b1 -> reception md c L2 b2 -> merge_reveal md b1 b2 = Ret (b', r) ->
    reception md c (L1 ++ L2) b'
| rc_feed L b bs o pt rest b' r :
    reception md c L b -> dec c_merkle_block bs = Some (o, []) -> (md = Release -> acceptable o) ->
    mb_cross_section o = flatten 0 pt ++ rest -> pwf_loose (mb_depth o) 0 pt ->
    merge_reveal md b o = Ret (b', r) ->
    reception md c (L ++ pcommit_pre (mb_depth o) (mb_cofactor o) pt) b'
| rc_path L b bs pf pid msg b' r :
    reception md c L b -> dec c_merkle_proof bs = Some (pf, []) ->
    merge_reveal_path md b pf pid msg = Ret (b', r) ->
    reception md c (L ++ proof_pre pf pid msg) b'
| rc_extract L b p m pf b' :
    reception md c L b -> In (p, m) (known_leaves (mb_cross_section b)) ->
    to_merkle_proof md b p = Ret (Ok pf) -> block_with pf p m = Ret (Ok b') -> reception md c L b'.

(** The same driven by a script of an adversary (SpecScript.v): [receives md c s b] as [follows md c s b], with the checks of
    [reception]. *)
Inductive receives (md : mode) (c : bytes32) : script -> merkle_block -> Prop :=
| rv_block bs b :
    dec c_merkle_block bs = Some (b, []) -> block_commit_id md b = Ret c ->
    shallow_nodes (mb_depth b) (mb_cross_section b) ->
    (md = Release -> heights_sum (mb_depth b) (mb_cross_section b) = (2 ^ N.of_nat (mb_depth b))%N) ->
    receives md c (ScBlock bs) b
| rv_proof bs pf pid msg b :
    dec c_merkle_proof bs = Some (pf, []) -> convolve md pf pid msg = Ret (Ok c) ->
    block_with pf pid msg = Ret (Ok b) ->
    receives md c (ScProof bs pid msg) b
| rv_conceal s b ids b' r :
    receives md c s b -> conceal_except md b ids = Ret (b', r) -> receives md c (ScConceal s ids) b'
| rv_merge s1 s2 b1 b2 b' r :
    receives md c s1 b1 -> receives md c s2 b2 -> merge_reveal md b1 b2 = Ret (b', r) ->
    receives md c (ScMerge s1 s2) b'
| rv_feed s b bs o b' r :
    receives md c s b -> dec c_merkle_block bs = Some (o, []) -> (md = Release -> acceptable o) ->
    merge_reveal md b o = Ret (b', r) ->
    receives md c (ScFeed s bs) b'
| rv_path s b bs pf pid msg b' r :
    receives md c s b -> dec c_merkle_proof bs = Some (pf, []) ->
    merge_reveal_path md b pf pid msg = Ret (b', r) ->
    receives md c (ScPath s bs pid msg) b'
| rv_extract s b p m pf b' :
    receives md c s b -> In (p, m) (known_leaves (mb_cross_section b)) ->
    to_merkle_proof md b p = Ret (Ok pf) -> block_with pf p m = Ret (Ok b') -> receives md c (ScExtract s p) b'.

End Feed.
