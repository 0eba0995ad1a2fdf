(** Which cross-sections a build without debug assertions commits to. *)
From Verif Require Import Base Merkle MpcAtoms MpcTree MpcBlock SpecTree.
Local Open Scope nat_scope.

(** The frontiers of a sequence of subtrees, each given with the depth of its root, one after another *)
Definition frontiers (ts : list (nat * ptree)) : list tree_node := flat_map (fun x => flatten (fst x) (snd x)) ts.

(** Number of leaves below a node at depth [d] of a tree of depth [D]; the code takes it as zero for nodes below the leaves. *)
Definition width_at (D d : nat) : N := if d <=? D then (2 ^ N.of_nat (D - d))%N else 0%N.

(** Depth of the leftmost node of the frontier *)
Fixpoint edge (d : nat) (t : ptree) : nat := match t with PBr l _ => edge (S d) l | _ => d end.

(** A subtree whose leftmost leaf is number [o] is aggregated into its root. *)
Definition rooted (D : nat) (o : N) (d : nat) (t : ptree) : Prop :=
  match t with
  | PConc _ => True
  | PLeaf _ _ => d = D
  | PBr _ _ => pwf_loose D d t /\ (o mod width_at D d = 0)%N
  end.

(** Subtrees from leaf number [o] on, the one before them having its root at depth [prev]: each is
    aggregated into its root, and none of the roots can be aggregated with the next. Roots at equal depth must be nodes
    of the tree which are no siblings, and nodes one level below the leaves must not meet. *)
Fixpoint settled (D : nat) (o : N) (prev : nat) (ts : list (nat * ptree)) : Prop :=
  match ts with
  | [] => True
  | (d, t) :: r =>
      rooted D o d t /\
      (d = prev -> 1 <= d <= D /\ ((o - width_at D d) mod (2 * width_at D d) <> 0)%N) /\
      (prev = S D -> edge d t <> S D) /\
      settled D (o + width_at D d) d r
  end.
