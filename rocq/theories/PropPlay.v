(** Openings in any order: C118 *)
From Coq Require Import Permutation Sorting.Sorted.
From Verif Require Import Base BaseFacts OrdMap Strict Digest Merkle MpcAtoms MpcTree MpcBlock.
From Verif Require Import Engine EngineIo Schemes Seals Api Vesper Sha256 Ripemd Dumb Text Loops Orders Suites MpcTests Serde Steps Work Costs.
From Verif Require Import SpecHash SpecTree SpecMerkle SpecFull SpecValid SpecCommit SpecDerived SpecBlock.
From Verif Require Import SpecBuoy SpecStrings SpecCodec SpecLayout SpecEngine SpecMisc SpecSha SpecDerive SpecLocal SpecSession SpecRipemd SpecEnd Stl SpecStl SpecQuery SpecCount SpecText SpecOrders SpecFind SpecForm SpecGame SpecHideGame SpecViewGame SpecBlockGame SpecSuites SpecExtend SpecCompress SpecTests SpecSerde SpecTalk SpecMany SpecDepth SpecTarget SpecIdGame SpecLate SpecTransfer SpecNest SpecScript SpecSalt SpecOpen SpecChoice SpecPick SpecOffer SpecPlay SpecSeek SpecShare SpecSettled SpecResting SpecDraw SpecFuse SpecFeed.
From Verif Require Import TheoremsMpc TheoremsBlock TheoremsMerkle TheoremsMisc TheoremsMore TheoremsExt TheoremsAdv TheoremsLocal TheoremsSession TheoremsHash TheoremsHide TheoremsEnd TheoremsStl TheoremsQuery TheoremsCount TheoremsText TheoremsFrame TheoremsLoops TheoremsTight TheoremsOrders TheoremsFind TheoremsForm TheoremsGame TheoremsHideGame TheoremsViewGame TheoremsBlockGame TheoremsSuites TheoremsExtend TheoremsCompress TheoremsTests TheoremsSerde TheoremsTalk TheoremsMany TheoremsDepth TheoremsWork TheoremsTarget TheoremsAttack TheoremsIdGame TheoremsLate TheoremsTransfer TheoremsNest TheoremsCosts TheoremsScript TheoremsSalt TheoremsOpen TheoremsChoice TheoremsPick TheoremsOffer TheoremsPlay TheoremsSeek TheoremsShare TheoremsSettled TheoremsResting TheoremsDraw TheoremsFuse TheoremsFeed.
From Verif Require Import CasesMpc CasesMisc CasesMore CasesExt CasesAdv CasesLocal CasesSession CasesHash CasesHide CasesEnd CasesStl CasesQuery CasesCount CasesText CasesFrame CasesLoops CasesTight CasesOrders CasesFind CasesForm CasesGame CasesHideGame CasesViewGame CasesBlockGame CasesSuites CasesExtend CasesCompress CasesTests CasesSerde CasesTalk CasesMany CasesDepth CasesWork CasesTarget CasesAttack CasesIdGame CasesLate CasesTransfer CasesNest CasesCosts CasesScript CasesSalt CasesOpen CasesChoice CasesPick CasesOffer CasesPlay CasesSeek CasesShare CasesSettled CasesResting CasesDraw CasesFuse CasesFeed.
Local Open Scope nat_scope.

Theorem C118_choice : forall n U q v r D (p : play) first k1 k2 (strings : universe n U) (short : 162 <= n) (allowed : orderly n D q v r [] p)
  (yes1 : counts (guesses_play U r first p) k1) (yes2 : counts (guesses_play U r (negb first) p) k2),
  let asked := (N.of_nat q + N.of_nat v * (3 * 2 ^ N.of_nat D + 2))%N in
  let all := (asked + 2 ^ 64 * (2 * 2 ^ N.of_nat D + 2))%N in
  (k1 * 2 ^ 191 <= k2 * 2 ^ 191 + N.of_nat r * (2 ^ 193 * asked + all ^ 2) * (2 ^ 64) ^ (N.of_nat r - 1) * 2 ^ (256 * N.of_nat (length U)))%N.
Proof. exact c118_choice. Qed.
Print Assumptions C118_choice.
Example C118_choice_case : exists U k1 k2, universe 162 U /\ orderly 162 2 1 3 2 [] duel /\
  counts (guesses_play U 2 true duel) k1 /\ counts (guesses_play U 2 (negb true) duel) k2.
Proof. exact c118_choice_case. Qed.

Theorem C118_meaning : forall n U q v r D (p : play) first (strings : universe n U) (allowed : orderly n D q v r [] p),
  (forall f es (len_f : length f = length U) (len_es : length es = r),
     exists a, played (table U f) first es [] p a /\ forall b, played (table U f) first es [] p b -> b = a) /\
  (exists k, counts (guesses_play U r first p) k) /\
  counts (guesses_play U r first (PlayEnd true)) ((2 ^ 64) ^ N.of_nat r * 2 ^ (256 * N.of_nat (length U))).
Proof. exact c118_meaning. Qed.
Print Assumptions C118_meaning.
Example C118_meaning_case : orderly 162 2 1 3 2 [] duel /\ played toy true [3; 4]%N [] duel false /\ played flat true [3; 4]%N [] duel true.
Proof. exact c118_meaning_case. Qed.

Theorem C118_numbers : forall n U q v r (p : play) first k1 k2 all (strings : universe n U) (short : 162 <= n) (allowed : orderly n 16 q v r [] p)
  (work : (N.of_nat q <= 2 ^ 40)%N) (openings : (N.of_nat v <= 2 ^ 20)%N) (many : (N.of_nat r <= 2 ^ 10)%N)
  (yes1 : counts (guesses_play U r first p) k1) (yes2 : counts (guesses_play U r (negb first) p) k2)
  (total : counts (guesses_play U r first (PlayEnd true)) all),
  (k1 * 2 ^ 11 <= k2 * 2 ^ 11 + all)%N.
Proof. exact c118_numbers. Qed.
Print Assumptions C118_numbers.
Example C118_numbers_case : orderly 162 16 1 3 2 [] duel /\ (N.of_nat 1 <= 2 ^ 40)%N /\ (N.of_nat 3 <= 2 ^ 20)%N /\ (N.of_nat 2 <= 2 ^ 10)%N.
Proof. exact c118_numbers_case. Qed.

Theorem C118_together : forall D ids ids' a b, alike D (ids ++ ids') a b <-> alike D ids a b /\ alike D ids' a b.
Proof. exact c118_together. Qed.
Print Assumptions C118_together.
Example C118_together_case : alike 2 ([] ++ [p2]) srcd srcd' /\ slot_of treed 1 <> slot_of treed' 1.
Proof. exact c118_together_case. Qed.
