(** Specification: counting sequences of protocol ids. *)
From Verif Require Import Base SpecCommit.
Local Open Scope nat_scope.

(** [L] lists every sequence with the property [P] exactly once. *)
Definition lists_all (L : list (list bytes32)) (P : list bytes32 -> Prop) : Prop :=
  NoDup L /\ forall l, In l L <-> P l.

(** All ids of [l] have different positions in a tree of depth [D] and cofactor 0. *)
Definition spread (D : nat) (l : list bytes32) : Prop := NoDup (map (fun p => s_pos p 0 D) l).

(** 2^256 choices for the first id, one class of 2^(256-D) ids less for each of the following *)
Fixpoint choices (D n : nat) : N :=
  match n with
  | O => 1
  | S k => choices D k * (2 ^ 256 - N.of_nat k * 2 ^ N.of_nat (256 - D))
  end%N.
