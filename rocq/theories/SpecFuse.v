(** Cross-sections which a merge leaves behind when one of the two blocks had nodes after its tree. *)
From Verif Require Import Base Merkle MpcAtoms MpcTree MpcBlock SpecTree SpecBlock SpecSettled.
Local Open Scope nat_scope.

(** The nodes of the frontier of [t] followed by others: these are read as subtrees which never aggregate, the leaves below
    all the nodes number [2^D] modulo [2^32], and the list can be stored. *)
Definition fused (D : nat) (t : ptree) (tail : list tree_node) : Prop :=
  (exists F, tail = frontiers F /\ settled D (2 ^ N.of_nat D) 0 F) /\
  (heights_sum D (flatten 0 t ++ tail) mod 2 ^ 32 = 2 ^ N.of_nat D)%N /\
  (N.of_nat (length (flatten 0 t ++ tail)) < 2 ^ 32)%N.

(** No concealed node is deeper than the leaves. *)
Definition shallow_nodes (D : nat) (xs : list tree_node) : Prop :=
  Forall (fun n => match n with ConcealedNode d _ => d <= D | CommitmentLeaf _ _ => True end) xs.
