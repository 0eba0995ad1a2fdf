(** Specification: an adversary who sees a commitment and guesses what was committed to. *)
From Verif Require Import Base MpcAtoms MpcTree MpcBlock SpecGame.
Local Open Scope nat_scope.

(** Exactly [k] values have the property [P]. *)
Definition counts {X : Type} (P : X -> Prop) (k : N) : Prop :=
  exists L, NoDup L /\ (forall x, In x L <-> P x) /\ N.of_nat (length L) = k.

(** The adversary answers "yes" to the commitment to [src]; the entropy and the answers of the hash function are [ef]. *)
Definition guesses (U : list (list byte)) (src : multi_source) (A : bytes32 -> prog bool) (ef : N * list bytes32) : Prop :=
  let '(e, f) := ef in
  (e < 2 ^ 64)%N /\ length f = length U /\
  exists t c, try_commit src (Some e) = Ret (Ok t) /\ @tree_commit_id (table U f) Debug t = Ret c /\
    exec (table U f) (A c) = true.

(** The adversary answers "yes" to the value [c] which has nothing to do with any source. *)
Definition guesses_blind (U : list (list byte)) (A : bytes32 -> prog bool) (cf : bytes32 * list bytes32) : Prop :=
  let '(c, f) := cf in length f = length U /\ exec (table U f) (A c) = true.

(** Drawn entropy is used, the tree has depth at most [D], and some slot remains empty. *)
Definition blinded (D : nat) (src : multi_source) : Prop :=
  ms_static_entropy src = None /\
  exists t, try_commit src (Some 0%N) = Ret (Ok t) /\ mt_depth t <= D /\
    (N.of_nat (length (ms_messages src)) < 2 ^ N.of_nat (mt_depth t))%N.
