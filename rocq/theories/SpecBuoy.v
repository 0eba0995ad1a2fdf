(** Specification: depths of the nodes of a frontier, and a buoy after several pushes. *)
From Verif Require Import Base Merkle SpecTree.

(** Depths of the frontier of a subtree whose root is at depth [d] *)
Fixpoint fdepths (d : nat) (t : ptree) : list nat :=
  match t with
  | PConc _ | PLeaf _ _ => [d]
  | PBr l r => fdepths (S d) l ++ fdepths (S d) r
  end.

Definition pushes (s : buoy) (ks : list nat) : buoy := fold_left (fun s k => snd (buoy_push s k)) ks s.

(** Pending depths, innermost first, after one more node at depth [k]: equal neighbours are
    the two halves of a subtree one level up. *)
Fixpoint settle (k : nat) (st : list nat) : list nat :=
  match st with
  | x :: st' => if Nat.eqb x k then settle (Nat.pred k) st' else k :: st
  | [] => [k]
  end.

(** Roots of the subtrees completed by a prefix of a frontier *)
Definition pending (ks : list nat) : list nat := fold_left (fun st k => settle k st) ks [].
