(** Specification: when the numbers drawn by a test give different positions in a tree of a given width. *)
From Verif Require Import Base.
Local Open Scope nat_scope.

(** numbers which fit into 128 bits *)
Definition u128 (draws : list (N * byte)) : Prop := Forall (fun d => fst d < 2 ^ 128)%N draws.
(** pairwise different numbers *)
Definition different (draws : list (N * byte)) : Prop := NoDup (map fst draws).
(** pairwise different residues *)
Definition apart (w : N) (draws : list (N * byte)) : Prop := NoDup (map (fun d => fst d mod w)%N draws).
(** The numbers are apart in one of the widths a tree of depth at most [D] may have: half of the positions or
    500 of them may be left out, at depth 0 one attempt is made. *)
Definition room (D : nat) (draws : list (N * byte)) : Prop :=
  exists d c, d <= D /\ (c <= 500)%N /\ (2 * c <= 2 ^ N.of_nat d)%N /\ apart (2 ^ N.of_nat d - c) draws.
(** tree.rs:287-303: how many numbers the test [tree_sizing] draws for each tree, in order *)
Definition sizes : list nat := seq 1 15 ++ [32; 23; 45; 64; 55; 77; 128; 119; 141; 256; 247; 269].
