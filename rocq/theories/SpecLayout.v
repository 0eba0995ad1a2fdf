(** Specification: the byte layouts of the consensus types, written out by hand. *)
From Verif Require Import Base Merkle MpcAtoms MpcTree MpcBlock.

Definition l_method (m : method) : list byte := match m with Sha256t => [x00] end.
Definition l_depth (d : nat) : list byte := [byte_of_N (N.of_nat d)].
Definition l_node (n : tree_node) : list byte :=
  match n with
  | ConcealedNode d h => [x00] ++ l_depth d ++ b32 h
  | CommitmentLeaf p m => [x01] ++ b32 p ++ b32 m
  end.
Definition l_leaf (l : leaf) : list byte :=
  match l with
  | Inhabited p m => [x10] ++ b32 p ++ b32 m
  | Entropy e i => [x11] ++ le 8 e ++ le 4 i
  end.
Definition l_merkle_node (n : merkle_node) : list byte :=
  [match mn_branching n with Void => x00 | Single => x01 | Branch => x02 end] ++
  le 1 (mn_depth n) ++ le 32 (mn_width n) ++ b32 (mn_node1 n) ++ b32 (mn_node2 n).
Definition l_concealed (c : merkle_concealed) : list byte :=
  l_depth (mc_depth c) ++ le 2 (mc_cofactor c) ++ b32 (mc_merkle_root c).
Definition l_proof (p : merkle_proof) : list byte :=
  l_method (mp_method p) ++ le 4 (mp_pos p) ++ le 2 (mp_cofactor p) ++
  le 1 (N.of_nat (length (mp_path p))) ++ concat (map b32 (mp_path p)).
Definition l_block (b : merkle_block) : list byte :=
  l_method (mb_method b) ++ l_depth (mb_depth b) ++ le 2 (mb_cofactor b) ++
  le 4 (N.of_nat (length (mb_cross_section b))) ++ concat (map l_node (mb_cross_section b)) ++
  match mb_entropy b with None => [x00] | Some e => [x01] ++ le 8 e end.
Definition l_tree (t : merkle_tree) : list byte :=
  l_method (mt_method t) ++ l_depth (mt_depth t) ++ le 8 (mt_entropy t) ++ le 2 (mt_cofactor t) ++
  le 3 (N.of_nat (length (mt_messages t))) ++
  concat (map (fun e => b32 (fst e) ++ b32 (snd e)) (mt_messages t)) ++
  le 3 (N.of_nat (length (mt_map t))) ++
  concat (map (fun e => le 4 (fst e) ++ b32 (fst (snd e)) ++ b32 (snd (snd e))) (mt_map t)).
