(** Specification of the number of positions spanned by a cross-section, and of blocks whose
    leaves are where they have to be. *)
From Verif Require Import Base MpcBlock SpecTree SpecCommit.
Local Open Scope nat_scope.

(** Positions below a node in a tree of depth [D] (nodes too deep count nothing). *)
Definition height (D : nat) (n : tree_node) : N :=
  match n with
  | ConcealedNode d _ => if d <=? D then (2 ^ N.of_nat (D - d))%N else 0%N
  | CommitmentLeaf _ _ => 1%N
  end.
Fixpoint heights_sum (D : nat) (xs : list tree_node) : N :=
  match xs with
  | [] => 0
  | n :: r => height D n + heights_sum D r
  end%N.

(** Every revealed leaf is at the position prescribed for its protocol. *)
Definition well_placed (D : nat) (cofactor : N) (t : ptree) : Prop :=
  forall q p m, In (q, (p, m)) (pleaves_at D 0 0 t) -> q = s_pos p cofactor D.
