(** Specification: partially revealed binary Merkle trees. A cross-section (of a
    MerkleBlock) is the left-to-right frontier of such a tree. *)
From Verif Require Import Base SpecHash MpcBlock.

Inductive ptree : Set :=
| PConc (h : bytes32)             (* concealed subtree, known by its hash *)
| PLeaf (pid msg : bytes32)       (* revealed leaf *)
| PBr (l r : ptree).              (* revealed inner node *)

(** Frontier of a tree whose root is at depth [d]. *)
Fixpoint flatten (d : nat) (t : ptree) : list tree_node :=
  match t with
  | PConc h => [ConcealedNode d h]
  | PLeaf p m => [CommitmentLeaf p m]
  | PBr l r => flatten (S d) l ++ flatten (S d) r
  end.

(** The tree showing only one leaf, at position [pos] among 2^(length path): [path] lists the
    hashes of the siblings from the root downwards. *)
Fixpoint path_tree (path : list bytes32) (pos : N) (p m : bytes32) : ptree :=
  match path with
  | [] => PLeaf p m
  | h :: r =>
      let half := (2 ^ N.of_nat (length r))%N in
      if (half <=? pos)%N then PBr (PConc h) (path_tree r (pos - half) p m)
      else PBr (path_tree r pos p m) (PConc h)
  end.

(** The perfect tree of height [k] with [f i] at position [i], from position [o] on. *)
Fixpoint full_tree (k : nat) (o : N) (f : N -> ptree) : ptree :=
  match k with
  | O => f o
  | S k' => PBr (full_tree k' o f) (full_tree k' (o + 2 ^ N.of_nat k')%N f)
  end.

(** All leaves at depth [D], concealed nodes not deeper than [D]. *)
Fixpoint pwf (D d : nat) (t : ptree) : Prop :=
  match t with
  | PConc _ => d <= D
  | PLeaf _ _ => d = D
  | PBr l r => pwf D (S d) l /\ pwf D (S d) r
  end.

(** The same, allowing concealed nodes one level below [D]. *)
Fixpoint pwf_loose (D d : nat) (t : ptree) : Prop :=
  match t with
  | PConc _ => d <= S D
  | PLeaf _ _ => d = D
  | PBr l r => pwf_loose D (S d) l /\ pwf_loose D (S d) r
  end.

Fixpoint pleaves (t : ptree) : list (bytes32 * bytes32) :=
  match t with
  | PConc _ => []
  | PLeaf p m => [(p, m)]
  | PBr l r => pleaves l ++ pleaves r
  end.

(** Revealed leaves with their positions: the subtree at depth [d] starts at position
    [o] and spans 2^(D-d) positions. *)
Fixpoint pleaves_at (D d : nat) (o : N) (t : ptree) : list (N * (bytes32 * bytes32)) :=
  match t with
  | PConc _ => []
  | PLeaf p m => [(o, (p, m))]
  | PBr l r =>
      pleaves_at D (S d) o l ++ pleaves_at D (S d) (o + 2 ^ N.of_nat (D - S d))%N r
  end.

Section WithHash.
Context {H : Hasher}.

(** Hash of a subtree at depth [d] in a tree of width [W]. *)
Fixpoint phash (W : N) (d : nat) (t : ptree) : bytes32 :=
  match t with
  | PConc h => h
  | PLeaf p m => HASH (s_leaf p m)
  | PBr l r => HASH (s_branch d W (phash W (S d) l) (phash W (S d) r))
  end.

(** All strings hashed to compute [phash]. *)
Fixpoint ppre (W : N) (d : nat) (t : ptree) : list (list byte) :=
  match t with
  | PConc h => []
  | PLeaf p m => [s_leaf p m]
  | PBr l r => s_branch d W (phash W (S d) l) (phash W (S d) r) :: ppre W (S d) l ++ ppre W (S d) r
  end.

(** Commitment to a tree of depth [D] with the given cofactor. *)
Definition pcommit (D : nat) (cofactor : N) (t : ptree) : bytes32 :=
  HASH (s_commit D cofactor (phash (2 ^ N.of_nat D) 0 t)).

(** All strings hashed to compute [pcommit], including the tags. *)
Definition pcommit_pre (D : nat) (cofactor : N) (t : ptree) : list (list byte) :=
  [s_node_tag; s_commit_tag; s_commit D cofactor (phash (2 ^ N.of_nat D) 0 t)]
  ++ ppre (2 ^ N.of_nat D) 0 t.

(** Reveal only the leaves selected by [f]: the coarsest tree which still shows them. *)
Fixpoint prestrict (f : bytes32 -> bool) (W : N) (d : nat) (t : ptree) : ptree :=
  match t with
  | PConc h => PConc h
  | PLeaf p m => if f p then PLeaf p m else PConc (phash W d t)
  | PBr l r =>
      if existsb (fun e => f (fst e)) (pleaves t)
      then PBr (prestrict f W (S d) l) (prestrict f W (S d) r)
      else PConc (phash W d t)
  end.

(** Join of two partially revealed versions of one tree. *)
Fixpoint pjoin (a b : ptree) : ptree :=
  match a, b with
  | PConc _, _ => b
  | _, PConc _ => a
  | PLeaf _ _, _ => a
  | PBr l r, PBr l' r' => PBr (pjoin l l') (pjoin r r')
  | PBr _ _, PLeaf _ _ => a
  end.

(** [t] is a (partial) view of [s]: some subtrees of [s] are replaced by their hashes. *)
Fixpoint pview (W : N) (d : nat) (t s : ptree) : Prop :=
  match t, s with
  | PConc h, _ => h = phash W d s
  | PLeaf p m, PLeaf p' m' => p = p' /\ m = m'
  | PBr l r, PBr l' r' => pview W (S d) l l' /\ pview W (S d) r r'
  | _, _ => False
  end.

End WithHash.

(** Maximal concealment: no two siblings are both concealed. *)
Fixpoint pmaximal (t : ptree) : Prop :=
  match t with
  | PBr l r =>
      pmaximal l /\ pmaximal r /\
      match l, r with PConc _, PConc _ => False | _, _ => True end
  | _ => True
  end.

(** A well-formed block: representable, and its cross-section is the frontier of [t]. *)
Definition block_tree (b : merkle_block) (t : ptree) : Prop :=
  mb_depth b <= 31 /\ (mb_cofactor b < 2 ^ 16)%N /\
  mb_cross_section b = flatten 0 t /\ pwf (mb_depth b) 0 t.

Definition wf_block (b : merkle_block) : Prop := exists t, block_tree b t.
