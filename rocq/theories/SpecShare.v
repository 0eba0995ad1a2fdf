(** Specification: when two Merkle proofs, of the same commitment or of different ones, contain the same hash. *)
From Verif Require Import Base MpcAtoms MpcTree SpecViewGame.
Local Open Scope nat_scope.

(** What the slot [i] holds: a protocol with its message, or the entropy with the position *)
Definition holds (t : merkle_tree) (i : N) : (bytes32 * bytes32) + (N * N) :=
  match slot_of t i with Some e => inl e | None => inr (mt_entropy t, i) end.

(** First position of the subtree of height [k] beside the way from the root to [pos] *)
Definition first_beside (pos : N) (k : nat) : N := (N.lxor (pos / 2 ^ N.of_nat k) 1 * 2 ^ N.of_nat k)%N.

(** The subtrees of height [k] beside the ways to [pos1] in [t1] and to [pos2] in [t2] hold the same things in the same order, and
    have their roots at the same depth of trees of the same size if they are more than single slots. *)
Definition same_beside (t1 : merkle_tree) (pos1 : N) (t2 : merkle_tree) (pos2 : N) (k : nat) : Prop :=
  (k = 0 \/ mt_depth t1 = mt_depth t2) /\
  forall i, (i < 2 ^ N.of_nat k)%N -> holds t1 (first_beside pos1 k + i) = holds t2 (first_beside pos2 k + i).
