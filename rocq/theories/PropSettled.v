(** Which blocks a release build commits to: C121 *)
From Coq Require Import Permutation Sorting.Sorted.
From Verif Require Import Base BaseFacts OrdMap Strict Digest Merkle MpcAtoms MpcTree MpcBlock.
From Verif Require Import Engine EngineIo Schemes Seals Api Vesper Sha256 Ripemd Dumb Text Loops Orders Suites MpcTests Serde Steps Work Costs.
From Verif Require Import SpecHash SpecTree SpecMerkle SpecFull SpecValid SpecCommit SpecDerived SpecBlock.
From Verif Require Import SpecBuoy SpecStrings SpecCodec SpecLayout SpecEngine SpecMisc SpecSha SpecDerive SpecLocal SpecSession SpecRipemd SpecEnd Stl SpecStl SpecQuery SpecCount SpecText SpecOrders SpecFind SpecForm SpecGame SpecHideGame SpecViewGame SpecBlockGame SpecSuites SpecExtend SpecCompress SpecTests SpecSerde SpecTalk SpecMany SpecDepth SpecTarget SpecIdGame SpecLate SpecTransfer SpecNest SpecScript SpecSalt SpecOpen SpecChoice SpecPick SpecOffer SpecPlay SpecSeek SpecShare SpecSettled SpecResting SpecDraw SpecFuse SpecFeed.
From Verif Require Import TheoremsMpc TheoremsBlock TheoremsMerkle TheoremsMisc TheoremsMore TheoremsExt TheoremsAdv TheoremsLocal TheoremsSession TheoremsHash TheoremsHide TheoremsEnd TheoremsStl TheoremsQuery TheoremsCount TheoremsText TheoremsFrame TheoremsLoops TheoremsTight TheoremsOrders TheoremsFind TheoremsForm TheoremsGame TheoremsHideGame TheoremsViewGame TheoremsBlockGame TheoremsSuites TheoremsExtend TheoremsCompress TheoremsTests TheoremsSerde TheoremsTalk TheoremsMany TheoremsDepth TheoremsWork TheoremsTarget TheoremsAttack TheoremsIdGame TheoremsLate TheoremsTransfer TheoremsNest TheoremsCosts TheoremsScript TheoremsSalt TheoremsOpen TheoremsChoice TheoremsPick TheoremsOffer TheoremsPlay TheoremsSeek TheoremsShare TheoremsSettled TheoremsResting TheoremsDraw TheoremsFuse TheoremsFeed.
From Verif Require Import CasesMpc CasesMisc CasesMore CasesExt CasesAdv CasesLocal CasesSession CasesHash CasesHide CasesEnd CasesStl CasesQuery CasesCount CasesText CasesFrame CasesLoops CasesTight CasesOrders CasesFind CasesForm CasesGame CasesHideGame CasesViewGame CasesBlockGame CasesSuites CasesExtend CasesCompress CasesTests CasesSerde CasesTalk CasesMany CasesDepth CasesWork CasesTarget CasesAttack CasesIdGame CasesLate CasesTransfer CasesNest CasesCosts CasesScript CasesSalt CasesOpen CasesChoice CasesPick CasesOffer CasesPlay CasesSeek CasesShare CasesSettled CasesResting CasesDraw CasesFuse CasesFeed.
Local Open Scope nat_scope.

Theorem C121_domain : forall (H : Hasher) b (valid : valid_block b),
  (exists c, block_commit_id Release b = Ret c) <->
  exists t rest, mb_cross_section b = flatten 0 t ++ frontiers rest /\ pwf_loose (mb_depth b) 0 t /\
    settled (mb_depth b) (2 ^ N.of_nat (mb_depth b)) 0 rest.
Proof. exact c121_domain. Qed.
Print Assumptions C121_domain.
Example C121_domain_case : valid_block b1t /\ @block_commit_id toy Release b1t = Ret c0 /\
  valid_block b1s /\ (exists x, @block_commit_id toy Release b1s = Panic x) /\
  ~ settled (mb_depth b1s) (2 ^ N.of_nat (mb_depth b1s)) 0 [(1, PConc m1); (1, PConc m2)] /\
  ~ settled (mb_depth b1s) (2 ^ N.of_nat (mb_depth b1s)) 0 [(0, PBr (PConc m1) (PConc m2))].
Proof. exact c121_domain_case. Qed.

Theorem C121_value : forall (H : Hasher) b t rest (valid : valid_block b)
  (section : mb_cross_section b = flatten 0 t ++ frontiers rest) (leaves : pwf_loose (mb_depth b) 0 t)
  (remainder : settled (mb_depth b) (2 ^ N.of_nat (mb_depth b)) 0 rest),
  block_commit_id Release b = Ret (pcommit (mb_depth b) (mb_cofactor b) t).
Proof. exact c121_value. Qed.
Print Assumptions C121_value.
Example C121_value_case : valid_block b1t /\ mb_cross_section b1t = flatten 0 pt1 ++ frontiers tail1 /\ pwf_loose (mb_depth b1t) 0 pt1 /\
  settled (mb_depth b1t) (2 ^ N.of_nat (mb_depth b1t)) 0 tail1 /\ @block_commit_id toy Release b1t = Ret c0.
Proof. exact c121_value_case. Qed.

Theorem C121_unique : forall (H : Hasher) b t rest t' rest' (valid : valid_block b)
  (section : mb_cross_section b = flatten 0 t ++ frontiers rest) (leaves : pwf_loose (mb_depth b) 0 t)
  (remainder : settled (mb_depth b) (2 ^ N.of_nat (mb_depth b)) 0 rest)
  (section' : mb_cross_section b = flatten 0 t' ++ frontiers rest') (leaves' : pwf_loose (mb_depth b) 0 t')
  (remainder' : settled (mb_depth b) (2 ^ N.of_nat (mb_depth b)) 0 rest'),
  t = t' /\ rest = rest'.
Proof. exact c121_unique. Qed.
Print Assumptions C121_unique.
Example C121_unique_case : valid_block b1t /\ mb_cross_section b1t = flatten 0 pt1 ++ frontiers tail1 /\ pwf_loose (mb_depth b1t) 0 pt1 /\
  settled (mb_depth b1t) (2 ^ N.of_nat (mb_depth b1t)) 0 tail1 /\ length tail1 = 8.
Proof. exact c121_unique_case. Qed.
