(** Extracting proofs from any block: C123 *)
From Coq Require Import Permutation Sorting.Sorted.
From Verif Require Import Base BaseFacts OrdMap Strict Digest Merkle MpcAtoms MpcTree MpcBlock.
From Verif Require Import Engine EngineIo Schemes Seals Api Vesper Sha256 Ripemd Dumb Text Loops Orders Suites MpcTests Serde Steps Work Costs.
From Verif Require Import SpecHash SpecTree SpecMerkle SpecFull SpecValid SpecCommit SpecDerived SpecBlock.
From Verif Require Import SpecBuoy SpecStrings SpecCodec SpecLayout SpecEngine SpecMisc SpecSha SpecDerive SpecLocal SpecSession SpecRipemd SpecEnd Stl SpecStl SpecQuery SpecCount SpecText SpecOrders SpecFind SpecForm SpecGame SpecHideGame SpecViewGame SpecBlockGame SpecSuites SpecExtend SpecCompress SpecTests SpecSerde SpecTalk SpecMany SpecDepth SpecTarget SpecIdGame SpecLate SpecTransfer SpecNest SpecScript SpecSalt SpecOpen SpecChoice SpecPick SpecOffer SpecPlay SpecSeek SpecShare SpecSettled SpecResting SpecDraw SpecFuse SpecFeed.
From Verif Require Import TheoremsMpc TheoremsBlock TheoremsMerkle TheoremsMisc TheoremsMore TheoremsExt TheoremsAdv TheoremsLocal TheoremsSession TheoremsHash TheoremsHide TheoremsEnd TheoremsStl TheoremsQuery TheoremsCount TheoremsText TheoremsFrame TheoremsLoops TheoremsTight TheoremsOrders TheoremsFind TheoremsForm TheoremsGame TheoremsHideGame TheoremsViewGame TheoremsBlockGame TheoremsSuites TheoremsExtend TheoremsCompress TheoremsTests TheoremsSerde TheoremsTalk TheoremsMany TheoremsDepth TheoremsWork TheoremsTarget TheoremsAttack TheoremsIdGame TheoremsLate TheoremsTransfer TheoremsNest TheoremsCosts TheoremsScript TheoremsSalt TheoremsOpen TheoremsChoice TheoremsPick TheoremsOffer TheoremsPlay TheoremsSeek TheoremsShare TheoremsSettled TheoremsResting TheoremsDraw TheoremsFuse TheoremsFeed.
From Verif Require Import CasesMpc CasesMisc CasesMore CasesExt CasesAdv CasesLocal CasesSession CasesHash CasesHide CasesEnd CasesStl CasesQuery CasesCount CasesText CasesFrame CasesLoops CasesTight CasesOrders CasesFind CasesForm CasesGame CasesHideGame CasesViewGame CasesBlockGame CasesSuites CasesExtend CasesCompress CasesTests CasesSerde CasesTalk CasesMany CasesDepth CasesWork CasesTarget CasesAttack CasesIdGame CasesLate CasesTransfer CasesNest CasesCosts CasesScript CasesSalt CasesOpen CasesChoice CasesPick CasesOffer CasesPlay CasesSeek CasesShare CasesSettled CasesResting CasesDraw CasesFuse CasesFeed.
Local Open Scope nat_scope.

Theorem C123_release : forall (H : Hasher) b p pf (valid : valid_block b) (known : In p (known_protocol_ids b)),
  to_merkle_proof Release b p = Ret (Ok pf) <->
  exists F, map (hide (mb_depth b) [p]) (mb_cross_section b) = frontiers F /\ resting (mb_depth b) 0 None F /\
    pf = MProof (mb_method b) (s_pos p (mb_cofactor b) (mb_depth b)) (mb_cofactor b)
           (lasts (map (top (2 ^ N.of_nat (mb_depth b))) F)).
Proof. exact c123_release. Qed.
Print Assumptions C123_release.
Example C123_release_case : valid_block b4s /\ In p2 (known_protocol_ids b4s) /\
  map (@hide toy (mb_depth b4s) [p2]) (mb_cross_section b4s) = frontiers f4s /\ resting (mb_depth b4s) 0 None f4s /\
  (exists pf, @to_merkle_proof toy Release b4s p2 = Ret (Ok pf) /\
    mp_path pf = [m1; @phash toy 4 1 (PBr (PConc (@HASH toy (@s_leaf toy p1 m1))) (PConc m2)); m2; m1; m1]) /\
  exists x, @to_merkle_proof toy Debug b4s p2 = Panic x.
Proof. exact c123_release_case. Qed.

Theorem C123_debug : forall (H : Hasher) b p pf (valid : valid_block b) (known : In p (known_protocol_ids b)),
  to_merkle_proof Debug b p = Ret (Ok pf) <->
  exists F, map (hide (mb_depth b) [p]) (mb_cross_section b) = frontiers F /\ resting (mb_depth b) 0 None F /\
    Forall (fun x => fst x <= mb_depth b) F /\ (breadth (mb_depth b) F < 2 ^ 32)%N /\
    (length F = length (mb_cross_section b) \/ breadth (mb_depth b) F = 2 ^ N.of_nat (mb_depth b))%N /\
    NoDup (root_depths F) /\ length (root_depths F) = mb_depth b /\
    pf = MProof (mb_method b) (s_pos p (mb_cofactor b) (mb_depth b)) (mb_cofactor b)
           (lasts (map (top (2 ^ N.of_nat (mb_depth b))) F)).
Proof. exact c123_debug. Qed.
Print Assumptions C123_debug.
Example C123_debug_case : valid_block b4r /\ In p2 (known_protocol_ids b4r) /\
  map (@hide toy (mb_depth b4r) [p2]) (mb_cross_section b4r) = frontiers f4r /\ resting (mb_depth b4r) 0 None f4r /\
  root_depths f4r = [2; 1] /\
  exists pf, @to_merkle_proof toy Debug b4r p2 = Ret (Ok pf) /\
    mp_path pf = [@phash toy 4 1 (PBr (PConc (@HASH toy (@s_leaf toy p1 m1))) (PConc m2)); m1].
Proof. exact c123_debug_case. Qed.

Theorem C123_all : forall (H : Hasher) md b ps,
  into_known_proofs md b = Ret ps <->
  map fst ps = known_protocol_ids b /\ Forall (fun x => to_merkle_proof md b (fst x) = Ret (Ok (snd x))) ps.
Proof. exact c123_all. Qed.
Print Assumptions C123_all.
Example C123_all_case : exists pf pf', @into_known_proofs toy Debug b4r = Ret [(p2, pf); (p1, pf')] /\ pf <> pf'.
Proof. exact c123_all_case. Qed.

Theorem C123_unchecked_refuted : forall (H : Hasher) (p m h : bytes32), exists b pf c,
  valid_block b /\ known_leaves (mb_cross_section b) = [(p, m)] /\ to_merkle_proof Debug b p = Ret (Ok pf) /\
  convolve Debug pf p m = Ret (Ok c) /\ exists x, block_commit_id Debug b = Panic x.
Proof. exact c123_unchecked_refuted. Qed.
Print Assumptions C123_unchecked_refuted.
