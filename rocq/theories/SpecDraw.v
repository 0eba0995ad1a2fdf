(** What proof extraction makes of any cross-section. *)
From Verif Require Import Base Merkle MpcAtoms MpcTree MpcBlock SpecTree SpecSettled.
Local Open Scope nat_scope.

(** Depths of the roots of the concealed subtrees *)
Fixpoint root_depths (ts : list (nat * ptree)) : list nat :=
  match ts with
  | [] => []
  | (_, PLeaf _ _) :: r => root_depths r
  | (d, _) :: r => d :: root_depths r
  end.

(** The last of the concealed nodes at a depth *)
Definition last_at (d : nat) (xs : list tree_node) : option bytes32 :=
  fold_left (fun acc n => match n with ConcealedNode e h => if e =? d then Some h else acc | CommitmentLeaf _ _ => acc end) xs None.

(** From the root down, for every depth the last of the concealed nodes at it, if there is one *)
Definition lasts (xs : list tree_node) : list bytes32 :=
  flat_map (fun d => match last_at d xs with Some h => [h] | None => [] end) (seq 0 32).
