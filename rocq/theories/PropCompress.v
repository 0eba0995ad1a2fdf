(** The published hash functions: C98 *)
From Coq Require Import Permutation Sorting.Sorted.
From Verif Require Import Base BaseFacts OrdMap Strict Digest Merkle MpcAtoms MpcTree MpcBlock.
From Verif Require Import Engine EngineIo Schemes Seals Api Vesper Sha256 Ripemd Dumb Text Loops Orders Suites MpcTests Serde Steps Work Costs.
From Verif Require Import SpecHash SpecTree SpecMerkle SpecFull SpecValid SpecCommit SpecDerived SpecBlock.
From Verif Require Import SpecBuoy SpecStrings SpecCodec SpecLayout SpecEngine SpecMisc SpecSha SpecDerive SpecLocal SpecSession SpecRipemd SpecEnd Stl SpecStl SpecQuery SpecCount SpecText SpecOrders SpecFind SpecForm SpecGame SpecHideGame SpecViewGame SpecBlockGame SpecSuites SpecExtend SpecCompress SpecTests SpecSerde SpecTalk SpecMany SpecDepth SpecTarget SpecIdGame SpecLate SpecTransfer SpecNest SpecScript SpecSalt SpecOpen SpecChoice SpecPick SpecOffer SpecPlay SpecSeek SpecShare SpecSettled SpecResting SpecDraw SpecFuse SpecFeed.
From Verif Require Import TheoremsMpc TheoremsBlock TheoremsMerkle TheoremsMisc TheoremsMore TheoremsExt TheoremsAdv TheoremsLocal TheoremsSession TheoremsHash TheoremsHide TheoremsEnd TheoremsStl TheoremsQuery TheoremsCount TheoremsText TheoremsFrame TheoremsLoops TheoremsTight TheoremsOrders TheoremsFind TheoremsForm TheoremsGame TheoremsHideGame TheoremsViewGame TheoremsBlockGame TheoremsSuites TheoremsExtend TheoremsCompress TheoremsTests TheoremsSerde TheoremsTalk TheoremsMany TheoremsDepth TheoremsWork TheoremsTarget TheoremsAttack TheoremsIdGame TheoremsLate TheoremsTransfer TheoremsNest TheoremsCosts TheoremsScript TheoremsSalt TheoremsOpen TheoremsChoice TheoremsPick TheoremsOffer TheoremsPlay TheoremsSeek TheoremsShare TheoremsSettled TheoremsResting TheoremsDraw TheoremsFuse TheoremsFeed.
From Verif Require Import CasesMpc CasesMisc CasesMore CasesExt CasesAdv CasesLocal CasesSession CasesHash CasesHide CasesEnd CasesStl CasesQuery CasesCount CasesText CasesFrame CasesLoops CasesTight CasesOrders CasesFind CasesForm CasesGame CasesHideGame CasesViewGame CasesBlockGame CasesSuites CasesExtend CasesCompress CasesTests CasesSerde CasesTalk CasesMany CasesDepth CasesWork CasesTarget CasesAttack CasesIdGame CasesLate CasesTransfer CasesNest CasesCosts CasesScript CasesSalt CasesOpen CasesChoice CasesPick CasesOffer CasesPlay CasesSeek CasesShare CasesSettled CasesResting CasesDraw CasesFuse CasesFeed.
Local Open Scope nat_scope.

Theorem C98_sha256 : forall x d, sha_published x d <-> d = b32 (sha256 x).
Proof. exact c98_sha256. Qed.
Print Assumptions C98_sha256.
Example C98_sha256_case : exists d, sha_published (str "abc") d /\ hex d = "ba7816bf8f01cfea414140de5dae2223b00361a396177a9cb410ff61f20015ad"%string.
Proof. exact c98_sha256_case. Qed.

Theorem C98_ripemd160 : forall x d, rmd_published x d <-> d = ripemd160 x.
Proof. exact c98_ripemd160. Qed.
Print Assumptions C98_ripemd160.
Example C98_ripemd160_case : exists d, rmd_published (str "12345678901234567890123456789012345678901234567890123456789012345678901234567890") d /\
  hex d = "9b752e45573d4b39f4dbd3323cab82bf63326bfb"%string.
Proof. exact c98_ripemd160_case. Qed.

Theorem C98_sha_step : forall s b s' (proper : proper_input (s, b)),
  let words s := [sa s; sb s; sc s; sd s; se s; sf s; sg s; sh s] in
  sha_compresses (words s) b s' <-> s' = words (compress s b).
Proof. exact c98_sha_step. Qed.
Print Assumptions C98_sha_step.
Example C98_sha_step_case : proper_input (iv, repeat 7%N 16) /\ sa (compress iv (repeat 7%N 16)) <> sa iv.
Proof. exact c98_sha_step_case. Qed.

Theorem C98_rmd_step : forall s b s' (proper : rproper_input (s, b)),
  rmd_compresses (rwords_of s) b s' <-> s' = rwords_of (rcompress s b).
Proof. exact c98_rmd_step. Qed.
Print Assumptions C98_rmd_step.
Example C98_rmd_step_case : rproper_input (riv, repeat 7%N 16) /\ ra (rcompress riv (repeat 7%N 16)) <> ra riv.
Proof. exact c98_rmd_step_case. Qed.
