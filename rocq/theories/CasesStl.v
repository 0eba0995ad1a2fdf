(** Cases: concrete values meeting the hypotheses of the theorems about published files. *)
From Verif Require Import Base Strict SpecCodec SpecValid Merkle MpcAtoms MpcTree MpcBlock Engine Vesper Stl SpecStl StlProofs
  CodecProofs TheoremsMpc CasesMpc CasesMisc.
Local Open Scope nat_scope.

Definition leaf_s : leaf := Entropy 7 2.

Lemma c83_types_case :
  described "Leaf" (d_leaf leaf_s) (enc c_leaf leaf_s) /\ described "MerkleBlock" (d_block b1) (enc c_merkle_block b1) /\
  described "MerkleTree" (d_tree t0) (enc c_merkle_tree t0) /\ described "MerkleProof" (d_proof pf1) (enc c_merkle_proof pf1) /\
  length (mt_messages t0) >= 1 /\ length (mt_map t0) >= 1 /\ length (mp_path pf1) >= 1.
Proof.
  split; [apply D_leaf; vm_compute; split; reflexivity|].
  split; [apply D_block|split; [apply D_tree|split; [apply D_proof|]]].
  - apply (law_can _ _ c_merkle_block_lawful (enc c_merkle_block b1) b1 []). comp.
  - apply (law_can _ _ c_merkle_tree_lawful (enc c_merkle_tree t0) t0 []). comp.
  - apply (law_can _ _ c_merkle_proof_lawful (enc c_merkle_proof pf1) pf1 []). comp.
  - vm_compute. lia.
Qed.

Lemma c83_reserved_case : In (4, "ReservedBytes4"%string) reserved_types /\
  dec (c_reserved 4 xaa) ([xaa; xaa; xaa; xaa] ++ [x01]) = Some ([xaa; xaa; xaa; xaa], [x01]).
Proof. split; [cbn; tauto|reflexivity]. Qed.
Lemma c83_reserved_narrow_case : In (32, "ReservedBytes32"%string) reserved_types.
Proof. cbn; tauto. Qed.

Lemma c83_vesper_leaf_case : sencodes [] vesper_leaf (d_leaf leaf_s) (x01 :: le 8 7 ++ le 4 2).
Proof.
  apply (EncUnion _ _ _ _ (TStruct [("entropy"%string, TUInt 8); ("pos"%string, TUInt 4)])); [right; left; reflexivity|].
  apply EncStruct. apply FldCons; [apply (EncUInt _ 8 (le 8 7)); reflexivity|].
  rewrite <- (app_nil_r (le 4 2)). apply FldCons; [apply (EncUInt _ 4 (le 4 2)); reflexivity|apply FldNil].
Qed.

Lemma c83_vesper_tags_case : described "Leaf" (d_leaf leaf_s) (x11 :: le 8 7 ++ le 4 2) /\ Byte.to_N x11 = (Byte.to_N x01 + 16)%N.
Proof. split; [change (described "Leaf" (d_leaf leaf_s) (enc c_leaf leaf_s)); apply D_leaf; vm_compute; split; reflexivity|reflexivity]. Qed.
Lemma c83_names_case : In (17, "ReservedBytes17"%string) reserved_types /\ In "Leaf"%string (map fst commit_verify_sty).
Proof. split; cbn; tauto. Qed.

Lemma c84_layouts_case :
  (exists c, @block_commit_id toy Debug b1 = Ret c) /\ (exists c, @tree_commit_id toy Debug t0 = Ret c) /\
  published_layout "Leaf" = Some ["commitment MerkleHash, hasher SHA256, tagged urn:ubideco:merkle:node#2024-01-31"%string;
                                  "  serialized Leaf"%string].
Proof. split; [eexists; comp|split; [eexists; comp|comp]]. Qed.
