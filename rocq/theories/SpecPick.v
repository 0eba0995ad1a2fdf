(** Specification: an adversary who chooses pairs of sets of messages, is given the multi-protocol commitments to the first or
    to the second ones, and guesses which. *)
From Verif Require Import Base MpcAtoms MpcTree MpcBlock SpecValid SpecGame SpecHideGame.
Local Open Scope nat_scope.

(** Any computation which may ask for hashes and for commitments; what it asks for may depend on all answers so far. *)
Inductive bargain : Type :=
| Decide (a : bool)
| AskDigest (s : list byte) (k : bytes32 -> bargain)
| AskCommitment (v w : multi_source) (k : bytes32 -> bargain).

(** The computation ends with this answer if it is given the commitments to the first (second) sets, with the entropies [es] in order. *)
Inductive deals (H : Hasher) (md : mode) (first : bool) : list N -> bargain -> bool -> Prop :=
| de_end es a : deals H md first es (Decide a) a
| de_hash es s k a : deals H md first es (k (H s)) a -> deals H md first es (AskDigest s k) a
| de_pair e es v w k t c a :
    try_commit (if first then v else w) (Some e) = Ret (Ok t) -> @tree_commit_id H md t = Ret c ->
    deals H md first es (k c) a -> deals H md first (e :: es) (AskCommitment v w k) a.

(** At most [q] hashes of at most [n] bytes; at most [r] pairs, all of valid sources with drawn entropy, an empty slot, and trees of
    depth at most [D] *)
Fixpoint proper (n D q r : nat) (p : bargain) {struct p} : Prop :=
  match p with
  | Decide _ => True
  | AskDigest s k => match q with O => False | S q' => length s <= n /\ forall a, proper n D q' r (k a) end
  | AskCommitment v w k =>
      match r with
      | O => False
      | S r' => (valid_source v /\ blinded D v) /\ (valid_source w /\ blinded D w) /\ forall c, proper n D q r' (k c)
      end
  end.

(** The adversary ends with "yes"; the entropies and the answers of the hash function are [ef]. *)
Definition picks_side (U : list (list byte)) (md : mode) (r : nat) (first : bool) (p : bargain) (ef : list N * list bytes32) : Prop :=
  let '(es, f) := ef in
  length f = length U /\ length es = r /\ Forall (fun e => (e < 2 ^ 64)%N) es /\ deals (table U f) md first es p true.
