(** Placeholder values: StrictDumb and Default of the crate's types. Integers, [u5], [Bytes32] and collections
    without a minimal size have the zero resp. empty value as their strict_dumb (crates outside /repo). *)
From Verif Require Import Base OrdMap Merkle MpcAtoms MpcTree MpcBlock.
Local Open Scope nat_scope.

(** 32 zero bytes: strict_dumb of MerkleHash (merkle.rs:107), Message, ProtocolId *)
Definition zero32 : bytes32 := b32_fill x00.

(** block.rs:78 *)
Definition dumb_tree_node : tree_node := ConcealedNode 0 zero32.
(** block.rs:183-193 *)
Definition dumb_block : merkle_block := MBlock Sha256t 1 0 [dumb_tree_node] (Some 8845%N).
(** atoms.rs:113-115 *)
Definition dumb_leaf : leaf := Entropy 0 0.
(** block.rs:129 (derived: every field is dumb) *)
Definition dumb_concealed : merkle_concealed := MConcealed 0 0 zero32.
(** merkle.rs:36, 45 and 54 (derived; the variant marked dumb) *)
Definition dumb_merkle_node : merkle_node := MNode Void 0 0 zero32 zero32.
(** tree.rs:43 (derived) *)
Definition dumb_tree : merkle_tree := MTree Sha256t 0 0 0 [] [].
(** block.rs:667 (derived Default) *)
Definition default_proof : merkle_proof := MProof Sha256t 0 0 [].
