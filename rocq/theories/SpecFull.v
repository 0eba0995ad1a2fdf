(** Specification: the complete tree behind a MerkleTree and the strings hashed for it. *)
From Verif Require Import Base OrdMap SpecHash SpecTree MpcAtoms MpcTree MpcBlock.
Local Open Scope nat_scope.

(** [n] consecutive numbers from [o] *)
Definition N_from (o : N) (n : nat) : list N := map (fun i => o + N.of_nat i)%N (seq 0 n).

Section WithHash.
Context {H : Hasher}.

(** What is at a position: a message, or the hash of an entropy leaf. *)
Definition slot (t : merkle_tree) (pos : N) : ptree :=
  match om_get N.ltb pos (mt_map t) with
  | Some (p, m) => PLeaf p m
  | None => PConc (HASH (s_entropy (mt_entropy t) pos))
  end.
Definition tree_full (t : merkle_tree) : ptree := full_tree (mt_depth t) 0 (slot t).

(** Strings hashed for the entropy leaves, and for the whole tree. *)
Definition entropy_pre (t : merkle_tree) : list (list byte) :=
  flat_map (fun pos => match om_get N.ltb pos (mt_map t) with
                       | Some _ => [] | None => [s_entropy (mt_entropy t) pos] end)
    (N_from 0 (2 ^ mt_depth t)).
Definition tree_pre (t : merkle_tree) : list (list byte) :=
  pcommit_pre (mt_depth t) (mt_cofactor t) (tree_full t) ++ entropy_pre t.

(** Strings hashed to check a proof. *)
Definition proof_pre (pf : merkle_proof) (pid msg : bytes32) : list (list byte) :=
  pcommit_pre (length (mp_path pf)) (mp_cofactor pf) (path_tree (mp_path pf) (mp_pos pf) pid msg).

End WithHash.
