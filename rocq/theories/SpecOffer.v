(** Specification: an adversary who chooses pairs of sets of messages and protocols to be shown, is given the partially revealed
    blocks of the first or of the second sets, and guesses which. *)
From Verif Require Import Base MpcAtoms MpcTree MpcBlock SpecValid SpecGame SpecHideGame SpecMany.
Local Open Scope nat_scope.

(** Any computation which may ask for hashes and for blocks; what it asks for may depend on all answers so far. *)
Inductive offer : Type :=
| OfferEnd (a : bool)
| OfferHash (s : list byte) (k : bytes32 -> offer)
| OfferPair (ids : list bytes32) (v w : multi_source) (k : merkle_block -> offer).

(** The computation ends with this answer if it is given the blocks of the first (second) sets in which all but the protocols
    asked for is concealed; the entropies are [es] in order. *)
Inductive offered (H : Hasher) (md : mode) (first : bool) : list N -> offer -> bool -> Prop :=
| of_end es a : offered H md first es (OfferEnd a) a
| of_hash es s k a : offered H md first es (k (H s)) a -> offered H md first es (OfferHash s k) a
| of_pair e es ids v w k t b n a :
    try_commit (if first then v else w) (Some e) = Ret (Ok t) -> @conceal_except H md (@block_of_tree H t) ids = Ret (b, Ok n) ->
    offered H md first es (k b) a -> offered H md first (e :: es) (OfferPair ids v w k) a.

(** At most [q] hashes of at most [n] bytes; at most [r] pairs, each of sets which differ only in what stays hidden *)
Fixpoint decent (n D q r : nat) (p : offer) {struct p} : Prop :=
  match p with
  | OfferEnd _ => True
  | OfferHash s k => match q with O => False | S q' => length s <= n /\ forall a, decent n D q' r (k a) end
  | OfferPair ids v w k => match r with O => False | S r' => alike D ids v w /\ forall b, decent n D q r' (k b) end
  end.

(** The adversary ends with "yes"; the entropies and the answers of the hash function are [ef]. *)
Definition guesses_offer (U : list (list byte)) (md : mode) (r : nat) (first : bool) (p : offer) (ef : list N * list bytes32) : Prop :=
  let '(es, f) := ef in
  length f = length U /\ length es = r /\ Forall (fun e => (e < 2 ^ 64)%N) es /\ offered (table U f) md first es p true.
