(** Representable values: those that the Rust types can hold (and that decoding yields). *)
From Verif Require Import Base OrdMap Merkle MpcAtoms MpcTree MpcBlock.
Local Open Scope nat_scope.

Definition valid_leaf (l : leaf) : Prop :=
  match l with Inhabited _ _ => True | Entropy e i => (e < 2 ^ 64)%N /\ (i < 2 ^ 32)%N end.

Definition valid_node (n : merkle_node) : Prop := (mn_depth n < 2 ^ 8)%N /\ (mn_width n < 2 ^ 256)%N.

Definition valid_concealed (c : merkle_concealed) : Prop := mc_depth c <= 31 /\ (mc_cofactor c < 2 ^ 16)%N.

Definition valid_tree_node (n : tree_node) : Prop :=
  match n with ConcealedNode d _ => d <= 31 | CommitmentLeaf _ _ => True end.

Definition valid_block (b : merkle_block) : Prop :=
  mb_depth b <= 31 /\ (mb_cofactor b < 2 ^ 16)%N /\
  (1 <= N.of_nat (length (mb_cross_section b)) < 2 ^ 32)%N /\ Forall valid_tree_node (mb_cross_section b) /\
  match mb_entropy b with Some e => (e < 2 ^ 64)%N | None => True end.

Definition valid_proof (p : merkle_proof) : Prop :=
  (mp_pos p < 2 ^ 32)%N /\ (mp_cofactor p < 2 ^ 16)%N /\ length (mp_path p) <= 32.

Definition valid_tree (t : merkle_tree) : Prop :=
  mt_depth t <= 31 /\ (mt_entropy t < 2 ^ 64)%N /\ (mt_cofactor t < 2 ^ 16)%N /\
  (N.of_nat (length (mt_messages t)) < 2 ^ 24)%N /\ om_sorted b32_ltb (mt_messages t) = true /\
  (N.of_nat (length (mt_map t)) < 2 ^ 24)%N /\ om_sorted N.ltb (mt_map t) = true /\
  Forall (fun e => fst e < 2 ^ 32)%N (mt_map t).

Definition valid_source (src : multi_source) : Prop :=
  ms_min_depth src <= 31 /\ (N.of_nat (length (ms_messages src)) <= u24_max)%N /\
  om_sorted b32_ltb (ms_messages src) = true /\
  match ms_static_entropy src with Some e => (e < 2 ^ 64)%N | None => True end.
