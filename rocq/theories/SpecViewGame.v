(** Specification: an adversary who sees a Merkle proof and guesses what else was committed to. *)
From Verif Require Import Base OrdMap MpcAtoms MpcTree MpcBlock SpecGame.
Local Open Scope nat_scope.

(** The position [i] is in the subtree of height [k] beside the way from the root to [pos]. *)
Definition beside (pos : N) (k : nat) (i : N) : Prop := (i / 2 ^ N.of_nat k = N.lxor (pos / 2 ^ N.of_nat k) 1)%N.

(** The slot [i] of the tree *)
Definition slot_of (t : merkle_tree) (i : N) : option (bytes32 * bytes32) := om_get N.ltb i (mt_map t).

(** Every subtree beside the way to [pos] has an empty slot in both trees, or is the same in both. *)
Definition screened (t1 t2 : merkle_tree) (pos : N) : Prop :=
  forall k, k < mt_depth t1 ->
    (exists i1 i2, (beside pos k i1 /\ slot_of t1 i1 = None) /\ (beside pos k i2 /\ slot_of t2 i2 = None)) \/
    (forall i, beside pos k i -> slot_of t1 i = slot_of t2 i).

(** The adversary answers "yes" to the proof of [pid] in [src]; the entropy and the answers of the hash function are [ef]. *)
Definition guesses_proof (U : list (list byte)) (src : multi_source) (pid : bytes32) (A : merkle_proof -> prog bool)
    (ef : N * list bytes32) : Prop :=
  let '(e, f) := ef in
  (e < 2 ^ 64)%N /\ length f = length U /\
  exists t pf, try_commit src (Some e) = Ret (Ok t) /\
    @to_merkle_proof (table U f) Debug (@block_of_tree (table U f) t) pid = Ret (Ok pf) /\
    exec (table U f) (A pf) = true.
