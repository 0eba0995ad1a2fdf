(** Specification of balanced Merkle trees over a list of leaf hashes. *)
From Verif Require Import Base SpecHash.

Inductive mtree : Set :=
| TVoid
| TOne (a : bytes32)
| TTwo (a b : bytes32)
| TSplit (l r : mtree).

(** More than two leaves are divided into two parts of equal size, the first one
    getting the odd leaf. *)
Inductive splits : list bytes32 -> mtree -> Prop :=
| split_void : splits [] TVoid
| split_one a : splits [a] (TOne a)
| split_two a b : splits [a; b] (TTwo a b)
| split_more xs ys l r :
    2 < length (xs ++ ys) -> length xs = length ys \/ length xs = S (length ys) ->
    splits xs l -> splits ys r -> splits (xs ++ ys) (TSplit l r).

Section WithHash.
Context {H : Hasher}.

(** Hash of a subtree at depth [d] of a tree with [W] leaves *)
Fixpoint mthash (W : N) (d : nat) (t : mtree) : bytes32 :=
  match t with
  | TVoid => HASH (s_void d W)
  | TOne a => HASH (s_single d W a)
  | TTwo a b => HASH (s_branch d W a b)
  | TSplit l r => HASH (s_branch d W (mthash W (S d) l) (mthash W (S d) r))
  end.

(** Strings hashed on the way *)
Fixpoint mtpre (W : N) (d : nat) (t : mtree) : list (list byte) :=
  match t with
  | TVoid => [s_void d W]
  | TOne a => [s_single d W a]
  | TTwo a b => [s_branch d W a b]
  | TSplit l r =>
      s_branch d W (mthash W (S d) l) (mthash W (S d) r) :: mtpre W (S d) l ++ mtpre W (S d) r
  end.

(** The root for a list of leaves: a single leaf is its own root. *)
Inductive merkle_root_of : list bytes32 -> bytes32 -> Prop :=
| root_single a : merkle_root_of [a] a
| root_tree xs t : length xs <> 1 -> splits xs t ->
    merkle_root_of xs (mthash (N.of_nat (length xs)) 0 t).

(** Strings hashed to compute the root *)
Inductive root_hashed : list bytes32 -> list (list byte) -> Prop :=
| hashed_single a : root_hashed [a] []
| hashed_tree xs t : length xs <> 1 -> splits xs t ->
    root_hashed xs (s_node_tag :: mtpre (N.of_nat (length xs)) 0 t).

(** The perfect tree of height [k] over leaf hashes [f o], [f (o+1)], ... *)
Fixpoint perfect (W : N) (d k : nat) (o : N) (f : N -> bytes32) : bytes32 :=
  match k with
  | O => f o
  | S k' => HASH (s_branch d W (perfect W (S d) k' o f) (perfect W (S d) k' (o + 2 ^ N.of_nat k')%N f))
  end.

End WithHash.
