(** Chosen sets of messages of which some are shown: C117 *)
From Coq Require Import Permutation Sorting.Sorted.
From Verif Require Import Base BaseFacts OrdMap Strict Digest Merkle MpcAtoms MpcTree MpcBlock.
From Verif Require Import Engine EngineIo Schemes Seals Api Vesper Sha256 Ripemd Dumb Text Loops Orders Suites MpcTests Serde Steps Work Costs.
From Verif Require Import SpecHash SpecTree SpecMerkle SpecFull SpecValid SpecCommit SpecDerived SpecBlock.
From Verif Require Import SpecBuoy SpecStrings SpecCodec SpecLayout SpecEngine SpecMisc SpecSha SpecDerive SpecLocal SpecSession SpecRipemd SpecEnd Stl SpecStl SpecQuery SpecCount SpecText SpecOrders SpecFind SpecForm SpecGame SpecHideGame SpecViewGame SpecBlockGame SpecSuites SpecExtend SpecCompress SpecTests SpecSerde SpecTalk SpecMany SpecDepth SpecTarget SpecIdGame SpecLate SpecTransfer SpecNest SpecScript SpecSalt SpecOpen SpecChoice SpecPick SpecOffer SpecPlay SpecSeek SpecShare SpecSettled SpecResting SpecDraw SpecFuse SpecFeed.
From Verif Require Import TheoremsMpc TheoremsBlock TheoremsMerkle TheoremsMisc TheoremsMore TheoremsExt TheoremsAdv TheoremsLocal TheoremsSession TheoremsHash TheoremsHide TheoremsEnd TheoremsStl TheoremsQuery TheoremsCount TheoremsText TheoremsFrame TheoremsLoops TheoremsTight TheoremsOrders TheoremsFind TheoremsForm TheoremsGame TheoremsHideGame TheoremsViewGame TheoremsBlockGame TheoremsSuites TheoremsExtend TheoremsCompress TheoremsTests TheoremsSerde TheoremsTalk TheoremsMany TheoremsDepth TheoremsWork TheoremsTarget TheoremsAttack TheoremsIdGame TheoremsLate TheoremsTransfer TheoremsNest TheoremsCosts TheoremsScript TheoremsSalt TheoremsOpen TheoremsChoice TheoremsPick TheoremsOffer TheoremsPlay TheoremsSeek TheoremsShare TheoremsSettled TheoremsResting TheoremsDraw TheoremsFuse TheoremsFeed.
From Verif Require Import CasesMpc CasesMisc CasesMore CasesExt CasesAdv CasesLocal CasesSession CasesHash CasesHide CasesEnd CasesStl CasesQuery CasesCount CasesText CasesFrame CasesLoops CasesTight CasesOrders CasesFind CasesForm CasesGame CasesHideGame CasesViewGame CasesBlockGame CasesSuites CasesExtend CasesCompress CasesTests CasesSerde CasesTalk CasesMany CasesDepth CasesWork CasesTarget CasesAttack CasesIdGame CasesLate CasesTransfer CasesNest CasesCosts CasesScript CasesSalt CasesOpen CasesChoice CasesPick CasesOffer CasesPlay CasesSeek CasesShare CasesSettled CasesResting CasesDraw CasesFuse CasesFeed.
Local Open Scope nat_scope.

Theorem C117_choice : forall n U q r D md (p : offer) first k1 k2 (strings : universe n U) (short : 162 <= n) (allowed : decent n D q r p)
  (yes1 : counts (guesses_offer U md r first p) k1) (yes2 : counts (guesses_offer U md r (negb first) p) k2),
  let asked := (N.of_nat q + (N.of_nat r - 1) * (3 * 2 ^ N.of_nat D + 2))%N in
  let all := (asked + 2 ^ 64 * (2 * 2 ^ N.of_nat D + 2))%N in
  (k1 * 2 ^ 191 <= k2 * 2 ^ 191 + N.of_nat r * (2 ^ 193 * asked + all ^ 2) * (2 ^ 64) ^ (N.of_nat r - 1) * 2 ^ (256 * N.of_nat (length U)))%N.
Proof. exact c117_choice. Qed.
Print Assumptions C117_choice.
Example C117_choice_case : exists U k1 k2, universe 162 U /\ decent 162 2 1 2 auction /\
  counts (guesses_offer U Debug 2 true auction) k1 /\ counts (guesses_offer U Debug 2 (negb true) auction) k2.
Proof. exact c117_choice_case. Qed.

Theorem C117_meaning : forall n U q r D md (p : offer) first (strings : universe n U) (allowed : decent n D q r p),
  (forall f es (len_f : length f = length U) (len_es : length es = r),
     exists a, offered (table U f) md first es p a /\ forall b, offered (table U f) md first es p b -> b = a) /\
  (exists k, counts (guesses_offer U md r first p) k) /\
  counts (guesses_offer U md r first (OfferEnd true)) ((2 ^ 64) ^ N.of_nat r * 2 ^ (256 * N.of_nat (length U))).
Proof. exact c117_meaning. Qed.
Print Assumptions C117_meaning.
Example C117_meaning_case : decent 162 2 1 2 auction /\ offered toy Debug true [3; 4]%N auction false /\ offered flat Debug true [3; 4]%N auction true.
Proof. exact c117_meaning_case. Qed.

Theorem C117_numbers : forall n U q r md (p : offer) first k1 k2 all (strings : universe n U) (short : 162 <= n) (allowed : decent n 16 q r p)
  (work : (N.of_nat q <= 2 ^ 40)%N) (many : (N.of_nat r <= 2 ^ 10)%N)
  (yes1 : counts (guesses_offer U md r first p) k1) (yes2 : counts (guesses_offer U md r (negb first) p) k2)
  (total : counts (guesses_offer U md r first (OfferEnd true)) all),
  (k1 * 2 ^ 11 <= k2 * 2 ^ 11 + all)%N.
Proof. exact c117_numbers. Qed.
Print Assumptions C117_numbers.
Example C117_numbers_case : decent 162 16 1 2 auction /\ (N.of_nat 1 <= 2 ^ 40)%N /\ (N.of_nat 2 <= 2 ^ 10)%N.
Proof. exact c117_numbers_case. Qed.
