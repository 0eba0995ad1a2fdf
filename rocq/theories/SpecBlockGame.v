(** Specification: an adversary who sees a partially revealed block and guesses what is hidden. *)
From Verif Require Import Base OrdMap MpcAtoms MpcTree MpcBlock SpecGame SpecViewGame.
Local Open Scope nat_scope.

(** The position [i] is in the subtree of height [k] with the number [a] (counted from the left). *)
Definition within (k : nat) (a i : N) : Prop := (i / 2 ^ N.of_nat k = a)%N.
(** The subtree has a message of one of the protocols [ids]. *)
Definition shows (t : merkle_tree) (ids : list bytes32) (k : nat) (a : N) : Prop :=
  exists i p m, within k a i /\ slot_of t i = Some (p, m) /\ In p ids.
(** The largest subtrees which have none *)
Definition concealed_top (t : merkle_tree) (ids : list bytes32) (k : nat) (a : N) : Prop :=
  k <= mt_depth t /\ (a < 2 ^ N.of_nat (mt_depth t - k))%N /\ ~ shows t ids k a /\ (k = mt_depth t \/ shows t ids (S k) (a / 2)).

(** Each of them has an empty slot in both trees, or is the same in both. *)
Definition screened_block (t1 t2 : merkle_tree) (ids : list bytes32) : Prop :=
  forall k a, concealed_top t1 ids k a ->
    (exists i1 i2, (within k a i1 /\ slot_of t1 i1 = None) /\ (within k a i2 /\ slot_of t2 i2 = None)) \/
    (forall i, within k a i -> slot_of t1 i = slot_of t2 i).

(** The adversary answers "yes" to the block of [src] in which all but [ids] is concealed;
    the entropy and the answers of the hash function are [ef]. *)
Definition guesses_block (U : list (list byte)) (src : multi_source) (ids : list bytes32) (A : merkle_block -> prog bool)
    (ef : N * list bytes32) : Prop :=
  let '(e, f) := ef in
  (e < 2 ^ 64)%N /\ length f = length U /\
  exists t b n, try_commit src (Some e) = Ret (Ok t) /\
    @conceal_except (table U f) Debug (@block_of_tree (table U f) t) ids = Ret (b, Ok n) /\
    exec (table U f) (A b) = true.
