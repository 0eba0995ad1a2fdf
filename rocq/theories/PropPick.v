(** Commitments to chosen sets of messages: C116 *)
From Coq Require Import Permutation Sorting.Sorted.
From Verif Require Import Base BaseFacts OrdMap Strict Digest Merkle MpcAtoms MpcTree MpcBlock.
From Verif Require Import Engine EngineIo Schemes Seals Api Vesper Sha256 Ripemd Dumb Text Loops Orders Suites MpcTests Serde Steps Work Costs.
From Verif Require Import SpecHash SpecTree SpecMerkle SpecFull SpecValid SpecCommit SpecDerived SpecBlock.
From Verif Require Import SpecBuoy SpecStrings SpecCodec SpecLayout SpecEngine SpecMisc SpecSha SpecDerive SpecLocal SpecSession SpecRipemd SpecEnd Stl SpecStl SpecQuery SpecCount SpecText SpecOrders SpecFind SpecForm SpecGame SpecHideGame SpecViewGame SpecBlockGame SpecSuites SpecExtend SpecCompress SpecTests SpecSerde SpecTalk SpecMany SpecDepth SpecTarget SpecIdGame SpecLate SpecTransfer SpecNest SpecScript SpecSalt SpecOpen SpecChoice SpecPick SpecOffer SpecPlay SpecSeek SpecShare SpecSettled SpecResting SpecDraw SpecFuse SpecFeed.
From Verif Require Import TheoremsMpc TheoremsBlock TheoremsMerkle TheoremsMisc TheoremsMore TheoremsExt TheoremsAdv TheoremsLocal TheoremsSession TheoremsHash TheoremsHide TheoremsEnd TheoremsStl TheoremsQuery TheoremsCount TheoremsText TheoremsFrame TheoremsLoops TheoremsTight TheoremsOrders TheoremsFind TheoremsForm TheoremsGame TheoremsHideGame TheoremsViewGame TheoremsBlockGame TheoremsSuites TheoremsExtend TheoremsCompress TheoremsTests TheoremsSerde TheoremsTalk TheoremsMany TheoremsDepth TheoremsWork TheoremsTarget TheoremsAttack TheoremsIdGame TheoremsLate TheoremsTransfer TheoremsNest TheoremsCosts TheoremsScript TheoremsSalt TheoremsOpen TheoremsChoice TheoremsPick TheoremsOffer TheoremsPlay TheoremsSeek TheoremsShare TheoremsSettled TheoremsResting TheoremsDraw TheoremsFuse TheoremsFeed.
From Verif Require Import CasesMpc CasesMisc CasesMore CasesExt CasesAdv CasesLocal CasesSession CasesHash CasesHide CasesEnd CasesStl CasesQuery CasesCount CasesText CasesFrame CasesLoops CasesTight CasesOrders CasesFind CasesForm CasesGame CasesHideGame CasesViewGame CasesBlockGame CasesSuites CasesExtend CasesCompress CasesTests CasesSerde CasesTalk CasesMany CasesDepth CasesWork CasesTarget CasesAttack CasesIdGame CasesLate CasesTransfer CasesNest CasesCosts CasesScript CasesSalt CasesOpen CasesChoice CasesPick CasesOffer CasesPlay CasesSeek CasesShare CasesSettled CasesResting CasesDraw CasesFuse CasesFeed.
Local Open Scope nat_scope.

Theorem C116_choice : forall n U q r D md (p : bargain) first k1 k2 (strings : universe n U) (short : 162 <= n) (allowed : proper n D q r p)
  (yes1 : counts (picks_side U md r first p) k1) (yes2 : counts (picks_side U md r (negb first) p) k2),
  let work := (2 * 2 ^ N.of_nat D + 2)%N in
  let asked := (N.of_nat q + (N.of_nat r - 1) * work)%N in
  (k1 * 2 ^ 192 <= k2 * 2 ^ 192 + N.of_nat r * (2 ^ 193 * asked + (asked + 2 ^ 64 * work) ^ 2) * (2 ^ 64) ^ (N.of_nat r - 1) * 2 ^ (256 * N.of_nat (length U)))%N.
Proof. exact c116_choice. Qed.
Print Assumptions C116_choice.
Example C116_choice_case : exists U k1 k2, universe 162 U /\ proper 162 3 1 2 haggler /\
  counts (picks_side U Debug 2 true haggler) k1 /\ counts (picks_side U Debug 2 (negb true) haggler) k2.
Proof. exact c116_choice_case. Qed.

Theorem C116_meaning : forall n U q r D md (p : bargain) first (strings : universe n U) (allowed : proper n D q r p),
  (forall f es (len_f : length f = length U) (len_es : length es = r),
     exists a, deals (table U f) md first es p a /\ forall b, deals (table U f) md first es p b -> b = a) /\
  (exists k, counts (picks_side U md r first p) k) /\
  counts (picks_side U md r first (Decide true)) ((2 ^ 64) ^ N.of_nat r * 2 ^ (256 * N.of_nat (length U))).
Proof. exact c116_meaning. Qed.
Print Assumptions C116_meaning.
Example C116_meaning_case : proper 162 3 1 2 haggler /\ deals flat Debug true [3; 4]%N haggler true.
Proof. exact c116_meaning_case. Qed.

Theorem C116_numbers : forall n U q r md (p : bargain) first k1 k2 all (strings : universe n U) (short : 162 <= n) (allowed : proper n 16 q r p)
  (work : (N.of_nat q <= 2 ^ 40)%N) (many : (N.of_nat r <= 2 ^ 10)%N)
  (yes1 : counts (picks_side U md r first p) k1) (yes2 : counts (picks_side U md r (negb first) p) k2)
  (total : counts (picks_side U md r first (Decide true)) all),
  (k1 * 2 ^ 12 <= k2 * 2 ^ 12 + all)%N.
Proof. exact c116_numbers. Qed.
Print Assumptions C116_numbers.
Example C116_numbers_case : proper 162 16 1 2 haggler /\ (N.of_nat 1 <= 2 ^ 40)%N /\ (N.of_nat 2 <= 2 ^ 10)%N.
Proof. exact c116_numbers_case. Qed.
