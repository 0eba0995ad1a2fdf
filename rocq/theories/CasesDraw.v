(** Concrete cases meeting the hypotheses of the theorems of TheoremsDraw.v. *)
From Verif Require Import Base BaseFacts OrdMap Strict Digest Merkle MpcAtoms MpcTree MpcBlock Engine Schemes.
From Verif Require Import SpecHash SpecTree SpecMerkle SpecFull SpecValid SpecCommit SpecDerived SpecBlock SpecSettled SpecResting SpecDraw.
From Verif Require Import TheoremsMpc TheoremsBlock TheoremsMore CasesMpc CasesMore CasesExt TheoremsSettled TheoremsResting CasesResting TheoremsDraw.
Local Open Scope nat_scope.

(** Five depths occur among the eight nodes which remain; with debug assertions the block cannot be concealed. *)
Lemma c123_release_case : valid_block b4s /\ In p2 (known_protocol_ids b4s) /\
  map (@hide toy (mb_depth b4s) [p2]) (mb_cross_section b4s) = frontiers f4s /\ resting (mb_depth b4s) 0 None f4s /\
  (exists pf, @to_merkle_proof toy Release b4s p2 = Ret (Ok pf) /\
    mp_path pf = [m1; @phash toy 4 1 (PBr (PConc (@HASH toy (@s_leaf toy p1 m1))) (PConc m2)); m2; m1; m1]) /\
  exists x, @to_merkle_proof toy Debug b4s p2 = Panic x.
Proof.
  split; [exact b4s_valid|split; [left; reflexivity|split; [comp|split; [exact f4s_rest|split; [eexists; split; comp|eexists; vm_compute; reflexivity]]]]].
Qed.
Lemma c123_debug_case : valid_block b4r /\ In p2 (known_protocol_ids b4r) /\
  map (@hide toy (mb_depth b4r) [p2]) (mb_cross_section b4r) = frontiers f4r /\ resting (mb_depth b4r) 0 None f4r /\
  root_depths f4r = [2; 1] /\
  exists pf, @to_merkle_proof toy Debug b4r p2 = Ret (Ok pf) /\
    mp_path pf = [@phash toy 4 1 (PBr (PConc (@HASH toy (@s_leaf toy p1 m1))) (PConc m2)); m1].
Proof.
  split; [exact b4r_valid|split; [left; reflexivity|split; [comp|split; [exact f4r_rest|split; [comp|eexists; split; comp]]]]].
Qed.
Lemma c123_all_case : exists pf pf', @into_known_proofs toy Debug b4r = Ret [(p2, pf); (p1, pf')] /\ pf <> pf'.
Proof. do 2 eexists. split; [vm_compute; reflexivity|vm_compute; discriminate]. Qed.
