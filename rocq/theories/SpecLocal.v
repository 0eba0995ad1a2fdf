(** Specification: what a proof of one slot contains, and which parts of it depend on another slot. *)
From Verif Require Import Base SpecHash SpecTree SpecFull MpcAtoms MpcTree.
Local Open Scope nat_scope.

Section WithHash.
Context {H : Hasher}.

(** Hashes of the subtrees left aside when descending to position [pos], from the root down, in the perfect
    tree of height [k] rooted at depth [d] with [f i] at position [i], from position [o] on *)
Fixpoint aside (W : N) (d k : nat) (o : N) (f : N -> ptree) (pos : N) : list bytes32 :=
  match k with
  | O => []
  | S k' =>
      let mid := (o + 2 ^ N.of_nat k')%N in
      if (mid <=? pos)%N then phash W (S d) (full_tree k' o f) :: aside W (S d) k' mid f pos
      else phash W (S d) (full_tree k' mid f) :: aside W (S d) k' o f pos
  end.
Definition tree_aside (t : merkle_tree) (pos : N) : list bytes32 :=
  aside (2 ^ N.of_nat (mt_depth t)) 0 (mt_depth t) 0 (slot t) pos.

End WithHash.

(** In a tree of depth [D] the ways from the root to the positions [i] and [j] part at level [l]. *)
Definition part_at (D : nat) (i j : N) (l : nat) : Prop :=
  l < D /\ (i / 2 ^ N.of_nat (D - l) = j / 2 ^ N.of_nat (D - l))%N /\
  (i / 2 ^ N.of_nat (D - S l) <> j / 2 ^ N.of_nat (D - S l))%N.

(** Two sources which differ at most in the message of [q] *)
Definition differ_at (src src' : multi_source) (q : bytes32) : Prop :=
  ms_method src = ms_method src' /\ ms_min_depth src = ms_min_depth src' /\
  map fst (ms_messages src) = map fst (ms_messages src') /\
  forall p m, p <> q -> In (p, m) (ms_messages src) <-> In (p, m) (ms_messages src').
