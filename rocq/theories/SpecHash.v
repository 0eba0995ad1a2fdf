(** Specification vocabulary: the exact byte strings that are hashed, written out by hand
    (independently of the codecs of the model), and collisions. *)
From Verif Require Import Base.

Section Spec.
Context {H : Hasher}.

(** BIP340-style tagged hash preimage *)
Definition s_pre (tag data : list byte) : list byte := b32 (HASH tag) ++ b32 (HASH tag) ++ data.

Definition s_node_tag : list byte := str "urn:ubideco:merkle:node#2024-01-31".
Definition s_commit_tag : list byte := str "urn:ubideco:mpc:commitment#2024-01-31".

(** inner node with two children; node with one child; node without children *)
Definition s_branch (depth : nat) (width : N) (a b : bytes32) : list byte :=
  s_pre s_node_tag (x02 :: byte_of_N (N.of_nat depth) :: le 32 width ++ b32 a ++ b32 b).
Definition s_single (depth : nat) (width : N) (a : bytes32) : list byte :=
  s_pre s_node_tag (x01 :: byte_of_N (N.of_nat depth) :: le 32 width ++ b32 a ++ repeat xff 32).
Definition s_void (depth : nat) (width : N) : list byte :=
  s_pre s_node_tag (x00 :: byte_of_N (N.of_nat depth) :: le 32 width ++ repeat xff 32 ++ repeat xff 32).
(** leaf with a message, entropy leaf *)
Definition s_leaf (pid msg : bytes32) : list byte :=
  s_pre s_node_tag (x10 :: b32 pid ++ b32 msg).
Definition s_entropy (e pos : N) : list byte :=
  s_pre s_node_tag (x11 :: le 8 e ++ le 4 pos).
(** final commitment *)
Definition s_commit (depth : nat) (cofactor : N) (root : bytes32) : list byte :=
  s_pre s_commit_tag (byte_of_N (N.of_nat depth) :: le 2 cofactor ++ b32 root).

(** Two different strings of [L] with the same hash. *)
Definition collision_in (L : list (list byte)) : Prop :=
  exists x y, In x L /\ In y L /\ x <> y /\ HASH x = HASH y.

End Spec.
