(** Specification: everything one can hold for a commitment [c] after talking to untrusted parties. *)
From Verif Require Import Base Strict MpcAtoms MpcTree MpcBlock SpecTree SpecFull.
Local Open Scope nat_scope.

Section Session.
Context {H : Hasher}.

(** [session md c L b]: the block [b] results from any sequence of operations, successful or not, on blocks
    and proofs decoded from bytes which anyone may have sent. A block is accepted first if it is well-formed
    and commits to [c], a proof if its convolution with the claimed message gives [c]; later ones are merged
    in without any check but the library's own (a received block must be well-formed).
    [L]: the strings hashed for what was received. *)
Inductive session (md : mode) (c : bytes32) : list (list byte) -> merkle_block -> Prop :=
| ss_block bs b pt :
    dec c_merkle_block bs = Some (b, []) -> block_tree b pt -> block_commit_id md b = Ret c ->
    session md c (pcommit_pre (mb_depth b) (mb_cofactor b) pt) b
| ss_proof bs pf pid msg b :
    dec c_merkle_proof bs = Some (pf, []) -> convolve md pf pid msg = Ret (Ok c) ->
    block_with pf pid msg = Ret (Ok b) ->
    session md c (proof_pre pf pid msg) b
| ss_conceal L b ids b' r :
    session md c L b -> conceal_except md b ids = Ret (b', r) -> session md c L b'
| ss_merge L1 L2 b1 b2 b' r :
    session md c L1 b1 -> session md c L2 b2 -> merge_reveal md b1 b2 = Ret (b', r) ->
    session md c (L1 ++ L2) b'
| ss_feed L b bs o pt b' r :
    session md c L b -> dec c_merkle_block bs = Some (o, []) -> block_tree o pt ->
    merge_reveal md b o = Ret (b', r) ->
    session md c (L ++ pcommit_pre (mb_depth o) (mb_cofactor o) pt) b'
| ss_path L b bs pf pid msg b' r :
    session md c L b -> dec c_merkle_proof bs = Some (pf, []) ->
    merge_reveal_path md b pf pid msg = Ret (b', r) ->
    session md c (L ++ proof_pre pf pid msg) b'
| ss_extract L b p m pf b' :
    session md c L b -> In (p, m) (known_leaves (mb_cross_section b)) ->
    to_merkle_proof md b p = Ret (Ok pf) -> block_with pf p m = Ret (Ok b') -> session md c L b'.

End Session.
