(** Specification of the multi-protocol placement problem. *)
From Verif Require Import Base.
Local Open Scope nat_scope.

(** Position of a protocol in a tree of the given depth and cofactor *)
Definition s_pos (pid : bytes32) (cofactor : N) (depth : nat) : N :=
  (le_val pid mod N.max 1 (2 ^ N.of_nat depth - cofactor))%N.

(** Attempts made for [n] messages starting from [min_depth]: at the first depth only the
    cofactors 0 and 1, later all up to half of the width, but never more than 500. *)
Definition allowed (min_depth n d : nat) (c : N) : Prop :=
  min_depth <= d <= 31 /\ (N.of_nat n <= 2 ^ N.of_nat d)%N /\ (c <= 500)%N /\
  (c <= if Nat.eqb d min_depth then 1 else 2 ^ N.of_nat (d - 1))%N.

(** All messages get different positions. *)
Definition fits (msgs : list (bytes32 * bytes32)) (d : nat) (c : N) : Prop :=
  NoDup (map (fun e => s_pos (fst e) c d) msgs).

(** Order of attempts *)
Definition not_after (a b : nat * N) : Prop :=
  fst a < fst b \/ (fst a = fst b /\ (snd a <= snd b)%N).
