(** Specification: how deep a tree chosen protocols can force. *)
From Verif Require Import Base SpecCommit.
Local Open Scope nat_scope.

(** number of pairs among [n] things *)
Definition pair_count (n : nat) : N := (N.of_nat n * (N.of_nat n - 1) / 2)%N.

(** The widths tried for [n] messages down to depth [D] have no common multiple below the product of as many
    256-bit numbers as there are pairs of messages. *)
Definition enough (min_depth n D : nat) : Prop :=
  forall q, (q <> 0)%N ->
    (forall d c, d <= D -> allowed min_depth n d c -> N.divide (N.max 1 (2 ^ N.of_nat d - c)) q) ->
    (2 ^ (256 * pair_count n) <= q)%N.

(** Depth which is never exceeded for 2, 3, ..., 10 messages when the minimal depth is at most 7. *)
Definition depth_limit (n : nat) : nat :=
  nth (n - 2) [8; 10; 11; 12; 13; 14; 16; 17; 18] 18.

(** Attempts made at depth [d] if none of them works *)
Definition attempts_at (min_depth n d : nat) : N :=
  if (N.of_nat n <=? 2 ^ N.of_nat d)%N
  then 1 + N.min 500 (if Nat.eqb d min_depth then 1 else 2 ^ N.of_nat (d - 1))
  else 0.
(** all attempts at depths from [min_depth] to below [d] *)
Definition attempts_below (min_depth n d : nat) : N :=
  fold_right N.add 0%N (map (attempts_at min_depth n) (seq min_depth (d - min_depth))).
