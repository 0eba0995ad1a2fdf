(** When two proofs contain the same hash: C120 *)
From Coq Require Import Permutation Sorting.Sorted.
From Verif Require Import Base BaseFacts OrdMap Strict Digest Merkle MpcAtoms MpcTree MpcBlock.
From Verif Require Import Engine EngineIo Schemes Seals Api Vesper Sha256 Ripemd Dumb Text Loops Orders Suites MpcTests Serde Steps Work Costs.
From Verif Require Import SpecHash SpecTree SpecMerkle SpecFull SpecValid SpecCommit SpecDerived SpecBlock.
From Verif Require Import SpecBuoy SpecStrings SpecCodec SpecLayout SpecEngine SpecMisc SpecSha SpecDerive SpecLocal SpecSession SpecRipemd SpecEnd Stl SpecStl SpecQuery SpecCount SpecText SpecOrders SpecFind SpecForm SpecGame SpecHideGame SpecViewGame SpecBlockGame SpecSuites SpecExtend SpecCompress SpecTests SpecSerde SpecTalk SpecMany SpecDepth SpecTarget SpecIdGame SpecLate SpecTransfer SpecNest SpecScript SpecSalt SpecOpen SpecChoice SpecPick SpecOffer SpecPlay SpecSeek SpecShare SpecSettled SpecResting SpecDraw SpecFuse SpecFeed.
From Verif Require Import TheoremsMpc TheoremsBlock TheoremsMerkle TheoremsMisc TheoremsMore TheoremsExt TheoremsAdv TheoremsLocal TheoremsSession TheoremsHash TheoremsHide TheoremsEnd TheoremsStl TheoremsQuery TheoremsCount TheoremsText TheoremsFrame TheoremsLoops TheoremsTight TheoremsOrders TheoremsFind TheoremsForm TheoremsGame TheoremsHideGame TheoremsViewGame TheoremsBlockGame TheoremsSuites TheoremsExtend TheoremsCompress TheoremsTests TheoremsSerde TheoremsTalk TheoremsMany TheoremsDepth TheoremsWork TheoremsTarget TheoremsAttack TheoremsIdGame TheoremsLate TheoremsTransfer TheoremsNest TheoremsCosts TheoremsScript TheoremsSalt TheoremsOpen TheoremsChoice TheoremsPick TheoremsOffer TheoremsPlay TheoremsSeek TheoremsShare TheoremsSettled TheoremsResting TheoremsDraw TheoremsFuse TheoremsFeed.
From Verif Require Import CasesMpc CasesMisc CasesMore CasesExt CasesAdv CasesLocal CasesSession CasesHash CasesHide CasesEnd CasesStl CasesQuery CasesCount CasesText CasesFrame CasesLoops CasesTight CasesOrders CasesFind CasesForm CasesGame CasesHideGame CasesViewGame CasesBlockGame CasesSuites CasesExtend CasesCompress CasesTests CasesSerde CasesTalk CasesMany CasesDepth CasesWork CasesTarget CasesAttack CasesIdGame CasesLate CasesTransfer CasesNest CasesCosts CasesScript CasesSalt CasesOpen CasesChoice CasesPick CasesOffer CasesPlay CasesSeek CasesShare CasesSettled CasesResting CasesDraw CasesFuse CasesFeed.
Local Open Scope nat_scope.

Theorem C120_shared : forall (H : Hasher) md src1 src2 rng1 rng2 t1 t2 x1 x2 y1 y2 pf1 pf2 k1 k2 h1 h2
  (valid1 : valid_source src1) (valid2 : valid_source src2)
  (made1 : try_commit src1 rng1 = Ret (Ok t1)) (made2 : try_commit src2 rng2 = Ret (Ok t2))
  (entropy1 : (mt_entropy t1 < 2 ^ 64)%N) (entropy2 : (mt_entropy t2 < 2 ^ 64)%N)
  (own1 : In (x1, y1) (ms_messages src1)) (own2 : In (x2, y2) (ms_messages src2))
  (proof1 : to_merkle_proof md (block_of_tree t1) x1 = Ret (Ok pf1)) (proof2 : to_merkle_proof md (block_of_tree t2) x2 = Ret (Ok pf2))
  (hash1 : nth_error (rev (mp_path pf1)) k1 = Some h1) (hash2 : nth_error (rev (mp_path pf2)) k2 = Some h2),
  (k1 = k2 /\ same_beside t1 (mp_pos pf1) t2 (mp_pos pf2) k1 -> h1 = h2) /\
  (h1 = h2 -> k1 = k2 /\ same_beside t1 (mp_pos pf1) t2 (mp_pos pf2) k1 \/ collision_in (tree_pre t1 ++ tree_pre t2)).
Proof. exact c120_shared. Qed.
Print Assumptions C120_shared.
Example C120_shared_case : exists pf pf' a a' h, a <> a' /\
  valid_source src0 /\ valid_source src0' /\ try_commit src0 None = Ret (Ok t0) /\ try_commit src0' None = Ret (Ok t0') /\
  mt_entropy t0 <> mt_entropy t0' /\ In (p1, m1) (ms_messages src0) /\ In (p1, m2) (ms_messages src0') /\
  @to_merkle_proof toy Debug (@block_of_tree toy t0) p1 = Ret (Ok pf) /\ @to_merkle_proof toy Debug (@block_of_tree toy t0') p1 = Ret (Ok pf') /\
  rev (mp_path pf) = [a; h] /\ rev (mp_path pf') = [a'; h] /\ same_beside t0 (mp_pos pf) t0' (mp_pos pf') 1 /\
  ~ same_beside t0 (mp_pos pf) t0' (mp_pos pf') 0.
Proof. exact c120_shared_case. Qed.

Theorem C120_neighbour : forall (H : Hasher) md src1 src2 rng1 rng2 t1 t2 p m1 m2 x y1 y2
  (valid1 : valid_source src1) (valid2 : valid_source src2)
  (made1 : try_commit src1 rng1 = Ret (Ok t1)) (made2 : try_commit src2 rng2 = Ret (Ok t2))
  (has1 : In (p, m1) (ms_messages src1)) (has2 : In (p, m2) (ms_messages src2))
  (own1 : In (x, y1) (ms_messages src1)) (own2 : In (x, y2) (ms_messages src2))
  (near1 : side_by_side t1 p x) (near2 : side_by_side t2 p x),
  exists pf1 pf2, to_merkle_proof md (block_of_tree t1) x = Ret (Ok pf1) /\ to_merkle_proof md (block_of_tree t2) x = Ret (Ok pf2) /\
    (m1 = m2 -> last (mp_path pf1) p = last (mp_path pf2) p) /\
    (last (mp_path pf1) p = last (mp_path pf2) p -> m1 = m2 \/ collision_in [s_leaf p m1; s_leaf p m2]).
Proof. exact c120_neighbour. Qed.
Print Assumptions C120_neighbour.
Example C120_neighbour_case : valid_source src0 /\ valid_source src0' /\ try_commit src0 None = Ret (Ok t0) /\ try_commit src0' None = Ret (Ok t0') /\
  mt_entropy t0 <> mt_entropy t0' /\ In (p3, m1) (ms_messages src0) /\ In (p3, m1) (ms_messages src0') /\
  In (p2, m2) (ms_messages src0) /\ In (p2, m2) (ms_messages src0') /\ side_by_side t0 p3 p2 /\ side_by_side t0' p3 p2.
Proof. exact c120_neighbour_case. Qed.

Theorem C120_unlinked : forall (H : Hasher) md src1 src2 rng1 rng2 t1 t2 x1 x2 y1 y2 pf1 pf2 k1 k2 h i
  (valid1 : valid_source src1) (valid2 : valid_source src2)
  (made1 : try_commit src1 rng1 = Ret (Ok t1)) (made2 : try_commit src2 rng2 = Ret (Ok t2))
  (entropy1 : (mt_entropy t1 < 2 ^ 64)%N) (entropy2 : (mt_entropy t2 < 2 ^ 64)%N)
  (own1 : In (x1, y1) (ms_messages src1)) (own2 : In (x2, y2) (ms_messages src2))
  (proof1 : to_merkle_proof md (block_of_tree t1) x1 = Ret (Ok pf1)) (proof2 : to_merkle_proof md (block_of_tree t2) x2 = Ret (Ok pf2))
  (hash1 : nth_error (rev (mp_path pf1)) k1 = Some h) (hash2 : nth_error (rev (mp_path pf2)) k2 = Some h)
  (there : beside (mp_pos pf1) k1 i) (vacant : slot_of t1 i = None),
  (mt_entropy t1 = mt_entropy t2 /\ k1 = k2 /\ first_beside (mp_pos pf1) k1 = first_beside (mp_pos pf2) k2) \/
  collision_in (tree_pre t1 ++ tree_pre t2).
Proof. exact c120_unlinked. Qed.
Print Assumptions C120_unlinked.
Example C120_unlinked_case : exists pf h, valid_source src0 /\ valid_source srcx /\ try_commit src0 None = Ret (Ok t0) /\ try_commit srcx None = Ret (Ok tx) /\
  In (p1, m1) (ms_messages src0) /\ In (p1, m2) (ms_messages srcx) /\
  @to_merkle_proof toy Debug (@block_of_tree toy t0) p1 = Ret (Ok pf) /\ @to_merkle_proof toy Debug (@block_of_tree toy tx) p1 = Ret (Ok pf) /\
  nth_error (rev (mp_path pf)) 0 = Some h /\ beside (mp_pos pf) 0 0 /\ slot_of t0 0 = None /\ slot_of t0 1 <> slot_of tx 1.
Proof. exact c120_unlinked_case. Qed.

Theorem C120_within : forall (H : Hasher) md src rng t x1 x2 y1 y2 pf1 pf2 k1 k2 h1 h2
  (valid : valid_source src) (made : try_commit src rng = Ret (Ok t)) (entropy : (mt_entropy t < 2 ^ 64)%N)
  (own1 : In (x1, y1) (ms_messages src)) (own2 : In (x2, y2) (ms_messages src))
  (proof1 : to_merkle_proof md (block_of_tree t) x1 = Ret (Ok pf1)) (proof2 : to_merkle_proof md (block_of_tree t) x2 = Ret (Ok pf2))
  (hash1 : nth_error (rev (mp_path pf1)) k1 = Some h1) (hash2 : nth_error (rev (mp_path pf2)) k2 = Some h2),
  (k1 = k2 /\ (mp_pos pf1 / 2 ^ N.of_nat k1 = mp_pos pf2 / 2 ^ N.of_nat k1)%N -> h1 = h2) /\
  (h1 = h2 -> k1 = k2 /\ (mp_pos pf1 / 2 ^ N.of_nat k1 = mp_pos pf2 / 2 ^ N.of_nat k1)%N \/ collision_in (tree_pre t)).
Proof. exact c120_within. Qed.
Print Assumptions C120_within.
Example C120_within_case : exists pf2 pf3 a b h, a <> b /\ valid_source src0 /\ try_commit src0 None = Ret (Ok t0) /\
  In (p2, m2) (ms_messages src0) /\ In (p3, m1) (ms_messages src0) /\
  @to_merkle_proof toy Debug (@block_of_tree toy t0) p2 = Ret (Ok pf2) /\ @to_merkle_proof toy Debug (@block_of_tree toy t0) p3 = Ret (Ok pf3) /\
  rev (mp_path pf2) = [a; h] /\ rev (mp_path pf3) = [b; h] /\ (mp_pos pf2 / 2 = mp_pos pf3 / 2)%N /\ mp_pos pf2 <> mp_pos pf3.
Proof. exact c120_within_case. Qed.
