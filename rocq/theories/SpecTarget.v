(** Specification: forging openings of commitments which were made beforehand. *)
From Verif Require Import Base OrdMap MpcAtoms MpcTree MpcBlock SpecHash SpecValid SpecGame.
Local Open Scope nat_scope.

(** A string of [L'] with the same hash as a different string of [L]: a second preimage. *)
Definition second_in {H : Hasher} (L L' : list (list byte)) : Prop :=
  exists x y, In x L /\ In y L' /\ x <> y /\ HASH x = HASH y.

(** The listed sources are committed to with the listed entropies, by trees of depth at most [D]. *)
Definition made_before (D : nat) (made : list (multi_source * option N)) : Prop :=
  forall src rng, In (src, rng) made -> valid_source src /\ exists t, try_commit src rng = Ret (Ok t) /\ mt_depth t <= D.

(** [c] is the commitment to the tree [t] made from the listed source [src]. *)
Definition committed (H : Hasher) (made : list (multi_source * option N)) (src : multi_source) (t : merkle_tree) (c : bytes32) : Prop :=
  exists rng md, In (src, rng) made /\ try_commit src rng = Ret (Ok t) /\ @tree_commit_id H md t = Ret c.
