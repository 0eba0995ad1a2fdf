(** Specification: byte strings hashed for leaves and nodes. *)
From Verif Require Import Base SpecHash Merkle MpcAtoms MpcTree MpcBlock.

Section Spec.
Context {H : Hasher}.

Definition leaf_string (l : leaf) : list byte :=
  match l with Inhabited p m => s_leaf p m | Entropy e i => s_entropy e i end.
Definition node_string (n : merkle_node) : list byte :=
  s_pre s_node_tag (match mn_branching n with Void => x00 | Single => x01 | Branch => x02 end
    :: le 1 (mn_depth n) ++ le 32 (mn_width n) ++ b32 (mn_node1 n) ++ b32 (mn_node2 n)).
Definition concealed_string (c : merkle_concealed) : list byte :=
  s_commit (mc_depth c) (mc_cofactor c) (mc_merkle_root c).

End Spec.
