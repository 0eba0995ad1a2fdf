(** The derived [Ord] of the crate's types. [derive(Ord)] compares fields in the order of their
    declaration; arrays, vectors and maps compare lexicographically by their items; [None] is less
    than [Some]; variants compare by their order, then by their fields (standard library, outside /repo). *)
From Verif Require Import Base OrdMap MpcAtoms MpcTree MpcBlock.
Local Open Scope nat_scope.

(** [Ordering::then], what the derived code does with the next field *)
Definition then_cmp (c d : comparison) : comparison := match c with Eq => d | _ => c end.

(** Items of arrays, vectors and maps in turn; a proper prefix is less. *)
Fixpoint list_cmp {A} (c : A -> A -> comparison) (l m : list A) : comparison :=
  match l, m with
  | [], [] => Eq
  | [], _ :: _ => Lt
  | _ :: _, [] => Gt
  | x :: l', y :: m' => then_cmp (c x y) (list_cmp c l' m')
  end.
(** u8 *)
Definition byte_cmp (a b : byte) : comparison := N.compare (Byte.to_N a) (Byte.to_N b).
(** ProtocolId, Message, Commitment (atoms.rs:51, 71, 123), MerkleHash (merkle.rs:105), StrictHash (id.rs:289):
    wrappers of Bytes32, that is of [u8; 32] *)
Definition id_cmp (a b : bytes32) : comparison := list_cmp byte_cmp a b.
(** lib.rs:91 *)
Definition reserved_cmp (a b : list byte) : comparison := list_cmp byte_cmp a b.
(** atoms.rs:33 *)
Definition method_cmp (a b : method) : comparison := match a, b with Sha256t, Sha256t => Eq end.
(** block.rs:667-691 *)
Definition proof_cmp (a b : merkle_proof) : comparison :=
  then_cmp (method_cmp (mp_method a) (mp_method b))
    (then_cmp (N.compare (mp_pos a) (mp_pos b))
      (then_cmp (N.compare (mp_cofactor a) (mp_cofactor b))
        (list_cmp id_cmp (mp_path a) (mp_path b)))).
Definition pair_cmp {A B} (ca : A -> A -> comparison) (cb : B -> B -> comparison) (x y : A * B) : comparison :=
  then_cmp (ca (fst x) (fst y)) (cb (snd x) (snd y)).
Definition option_cmp {A} (c : A -> A -> comparison) (x y : option A) : comparison :=
  match x, y with
  | None, None => Eq
  | None, Some _ => Lt
  | Some _, None => Gt
  | Some a, Some b => c a b
  end.
(** atoms.rs:149-157 *)
Definition source_cmp (a b : multi_source) : comparison :=
  then_cmp (method_cmp (ms_method a) (ms_method b))
    (then_cmp (Nat.compare (ms_min_depth a) (ms_min_depth b))
      (then_cmp (list_cmp (pair_cmp id_cmp id_cmp) (ms_messages a) (ms_messages b))
        (option_cmp N.compare (ms_static_entropy a) (ms_static_entropy b)))).
(** tree.rs:102-117 *)
Definition commit_error_cmp (a b : commit_error) : comparison :=
  match a, b with
  | Empty, Empty => Eq
  | Empty, _ => Lt
  | _, Empty => Gt
  | TooManyMessages n, TooManyMessages m => Nat.compare n m
  | TooManyMessages _, _ => Lt
  | _, TooManyMessages _ => Gt
  | CantFitInMaxSlots n, CantFitInMaxSlots m => Nat.compare n m
  end.
