(** Specification: an adversary who asks, one after another, for proofs, partially revealed blocks and the commitment
    of one source, and guesses what was never revealed. *)
From Verif Require Import Base OrdMap MpcAtoms MpcTree MpcBlock SpecGame.
Local Open Scope nat_scope.

(** What can be asked for, and what is given *)
Inductive opening : Set := OpenBlock (ids : list bytes32) | OpenProof (pid : bytes32) | OpenCommitment.
Inductive opened : Set := GivenBlock (b : merkle_block) | GivenProof (pf : merkle_proof) | GivenCommitment (c : bytes32).
Definition names (o : opening) : list bytes32 :=
  match o with OpenBlock ids => ids | OpenProof pid => [pid] | OpenCommitment => [] end.
Definition gives (H : Hasher) (t : merkle_tree) (o : opening) (x : opened) : Prop :=
  match o, x with
  | OpenBlock ids, GivenBlock b => exists n, conceal_except Debug (block_of_tree t) ids = Ret (b, Ok n)
  | OpenProof pid, GivenProof pf => to_merkle_proof Debug (block_of_tree t) pid = Ret (Ok pf)
  | OpenCommitment, GivenCommitment c => tree_commit_id Debug t = Ret c
  | _, _ => False
  end.

(** Any computation which may ask for hashes and openings; what it asks for may depend on all answers so far. *)
Inductive talk : Type :=
| Say (a : bool)
| TalkHash (s : list byte) (k : bytes32 -> talk)
| TalkOpen (o : opening) (k : opened -> talk).

Inductive ends (H : Hasher) (t : merkle_tree) : talk -> bool -> Prop :=
| ends_say a : ends H t (Say a) a
| ends_hash s k a : ends H t (k (H s)) a -> ends H t (TalkHash s k) a
| ends_open o x k a : gives H t o x -> ends H t (k x) a -> ends H t (TalkOpen o k) a.

(** At most [q] hashes of at most [n] bytes and at most [v] openings, all of them naming no protocols but [ids] *)
Fixpoint polite (ids : list bytes32) (n q v : nat) (p : talk) {struct p} : Prop :=
  match p with
  | Say _ => True
  | TalkHash s k => match q with O => False | S q' => length s <= n /\ forall a, polite ids n q' v (k a) end
  | TalkOpen o k => match v with O => False | S v' => incl (names o) ids /\ forall x, polite ids n q v' (k x) end
  end.

(** The adversary ends with "yes" when talking about [src]; the entropy and the answers of the hash function are [ef]. *)
Definition guesses_talk (U : list (list byte)) (src : multi_source) (A : talk) (ef : N * list bytes32) : Prop :=
  let '(e, f) := ef in
  (e < 2 ^ 64)%N /\ length f = length U /\
  exists t, try_commit src (Some e) = Ret (Ok t) /\ ends (table U f) t A true.

(** A computation which asks only for hashes *)
Fixpoint alone (p : prog bool) : talk :=
  match p with Done a => Say a | Ask s k => TalkHash s (fun a => alone (k a)) end.
