(** What concealing makes of any cross-section. *)
From Verif Require Import Base SpecHash Merkle MpcAtoms MpcTree MpcBlock SpecTree SpecSettled.
Local Open Scope nat_scope.

(** Nodes after the leaves which are not to be kept have been replaced with their hashes *)
Definition hide {H : Hasher} (D : nat) (ids : list bytes32) (n : tree_node) : tree_node :=
  match n with
  | CommitmentLeaf p m => if existsb (b32_eqb p) ids then n else ConcealedNode D (HASH (s_leaf p m))
  | ConcealedNode _ _ => n
  end.

(** Number of leaves not to be kept *)
Definition hidden_leaves (ids : list bytes32) (xs : list tree_node) : nat :=
  length (filter (fun n => match n with
                           | CommitmentLeaf p _ => if existsb (b32_eqb p) ids then false else true
                           | ConcealedNode _ _ => false
                           end) xs).

(** Subtrees from leaf number [o] on, which are revealed leaves or have none; [prev]: depth of the root before them, if the last
    subtree is no revealed leaf. As in [settled], each is aggregated into its root and none of the roots with the next. *)
Fixpoint resting (D : nat) (o : N) (prev : option nat) (ts : list (nat * ptree)) : Prop :=
  match ts with
  | [] => True
  | (d, PLeaf _ _) :: r => d = D /\ resting D (o + 1) None r
  | (d, t) :: r =>
      pleaves t = [] /\ rooted D o d t /\
      (prev = Some d -> 1 <= d <= D /\ ((o - width_at D d) mod (2 * width_at D d) <> 0)%N) /\
      (prev = Some (S D) -> edge d t <> S D) /\
      resting D (o + width_at D d) (Some d) r
  end.

(** What a subtree becomes *)
Definition top {H : Hasher} (W : N) (x : nat * ptree) : tree_node :=
  match snd x with PLeaf p m => CommitmentLeaf p m | t => ConcealedNode (fst x) (phash W (fst x) t) end.

(** Leaves covered by the roots *)
Definition breadth (D : nat) (ts : list (nat * ptree)) : N := fold_right (fun x s => width_at D (fst x) + s)%N 0%N ts.
