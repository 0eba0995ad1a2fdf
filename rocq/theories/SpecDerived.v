(** Specification: blocks derivable from a tree by the public operations. *)
From Verif Require Import Base MpcAtoms MpcTree MpcBlock.

Section Derived.
Context {H : Hasher}.

(** Any sequence of operations, successful or not, starting from one tree: building the block,
    concealing, merging, extracting a proof and turning it back into a block. *)
Inductive derived (md : mode) (t : merkle_tree) : merkle_block -> Prop :=
| dv_tree : derived md t (block_of_tree t)
| dv_conceal b ids b' r :
    derived md t b -> conceal_except md b ids = Ret (b', r) -> derived md t b'
| dv_merge b1 b2 b' r :
    derived md t b1 -> derived md t b2 -> merge_reveal md b1 b2 = Ret (b', r) -> derived md t b'
| dv_proof b pid msg pf b' :
    derived md t b -> In (pid, msg) (known_leaves (mb_cross_section b)) ->
    to_merkle_proof md b pid = Ret (Ok pf) -> block_with pf pid msg = Ret (Ok b') -> derived md t b'.

(** Collecting the proofs of several protocols (last one first) into one block. *)
Inductive collected (md : mode) (t : merkle_tree) : list bytes32 -> merkle_block -> Prop :=
| cl_one pid msg pf b :
    In (pid, msg) (mt_messages t) ->
    to_merkle_proof md (block_of_tree t) pid = Ret (Ok pf) ->
    block_with pf pid msg = Ret (Ok b) -> collected md t [pid] b
| cl_more ids b pid msg pf b' n :
    collected md t ids b -> In (pid, msg) (mt_messages t) ->
    to_merkle_proof md (block_of_tree t) pid = Ret (Ok pf) ->
    merge_reveal_path md b pf pid msg = Ret (b', Ok n) -> collected md t (pid :: ids) b'.

End Derived.
