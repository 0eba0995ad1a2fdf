(** Proofs and blocks of several commitments: C102 *)
From Coq Require Import Permutation Sorting.Sorted.
From Verif Require Import Base BaseFacts OrdMap Strict Digest Merkle MpcAtoms MpcTree MpcBlock.
From Verif Require Import Engine EngineIo Schemes Seals Api Vesper Sha256 Ripemd Dumb Text Loops Orders Suites MpcTests Serde Steps Work Costs.
From Verif Require Import SpecHash SpecTree SpecMerkle SpecFull SpecValid SpecCommit SpecDerived SpecBlock.
From Verif Require Import SpecBuoy SpecStrings SpecCodec SpecLayout SpecEngine SpecMisc SpecSha SpecDerive SpecLocal SpecSession SpecRipemd SpecEnd Stl SpecStl SpecQuery SpecCount SpecText SpecOrders SpecFind SpecForm SpecGame SpecHideGame SpecViewGame SpecBlockGame SpecSuites SpecExtend SpecCompress SpecTests SpecSerde SpecTalk SpecMany SpecDepth SpecTarget SpecIdGame SpecLate SpecTransfer SpecNest SpecScript SpecSalt SpecOpen SpecChoice SpecPick SpecOffer SpecPlay SpecSeek SpecShare SpecSettled SpecResting SpecDraw SpecFuse SpecFeed.
From Verif Require Import TheoremsMpc TheoremsBlock TheoremsMerkle TheoremsMisc TheoremsMore TheoremsExt TheoremsAdv TheoremsLocal TheoremsSession TheoremsHash TheoremsHide TheoremsEnd TheoremsStl TheoremsQuery TheoremsCount TheoremsText TheoremsFrame TheoremsLoops TheoremsTight TheoremsOrders TheoremsFind TheoremsForm TheoremsGame TheoremsHideGame TheoremsViewGame TheoremsBlockGame TheoremsSuites TheoremsExtend TheoremsCompress TheoremsTests TheoremsSerde TheoremsTalk TheoremsMany TheoremsDepth TheoremsWork TheoremsTarget TheoremsAttack TheoremsIdGame TheoremsLate TheoremsTransfer TheoremsNest TheoremsCosts TheoremsScript TheoremsSalt TheoremsOpen TheoremsChoice TheoremsPick TheoremsOffer TheoremsPlay TheoremsSeek TheoremsShare TheoremsSettled TheoremsResting TheoremsDraw TheoremsFuse TheoremsFeed.
From Verif Require Import CasesMpc CasesMisc CasesMore CasesExt CasesAdv CasesLocal CasesSession CasesHash CasesHide CasesEnd CasesStl CasesQuery CasesCount CasesText CasesFrame CasesLoops CasesTight CasesOrders CasesFind CasesForm CasesGame CasesHideGame CasesViewGame CasesBlockGame CasesSuites CasesExtend CasesCompress CasesTests CasesSerde CasesTalk CasesMany CasesDepth CasesWork CasesTarget CasesAttack CasesIdGame CasesLate CasesTransfer CasesNest CasesCosts CasesScript CasesSalt CasesOpen CasesChoice CasesPick CasesOffer CasesPlay CasesSeek CasesShare CasesSettled CasesResting CasesDraw CasesFuse CasesFeed.
Local Open Scope nat_scope.

Theorem C102_hidden : forall n U q v D (A : talks) idss srcs1 srcs2 k1 k2
  (strings : universe n U) (short : 162 <= n) (few : polite_all idss n q v A) (similar : alike_each D idss srcs1 srcs2)
  (yes1 : counts (guesses_all U srcs1 A) k1) (yes2 : counts (guesses_all U srcs2 A) k2),
  (k1 * 2 ^ 127 <= k2 * 2 ^ 127 +
    N.of_nat (length idss) * (((N.of_nat q + (N.of_nat v + 1) * (5 * 2 ^ N.of_nat D + 4)) * 2 ^ 64 + (2 * 2 ^ N.of_nat D + 2) ^ 2) * 2 ^ (256 * N.of_nat (length U)))
      * 2 ^ (64 * N.of_nat (length idss)))%N.
Proof. exact c102_hidden. Qed.
Print Assumptions C102_hidden.
Example C102_hidden_case : exists U k1 k2, universe 162 U /\ polite_all [[p2]; [p2]] 162 1 3 compare /\
  alike_each 2 [[p2]; [p2]] [srcd; srcd] [srcd'; srcd] /\ slot_of treed 1 <> slot_of treed' 1 /\
  counts (guesses_all U [srcd; srcd] compare) k1 /\ counts (guesses_all U [srcd'; srcd] compare) k2.
Proof. exact c102_hidden_case. Qed.

Theorem C102_meaning : forall n U q v D (A : talks) idss srcs srcs'
  (strings : universe n U) (short : 162 <= n) (few : polite_all idss n q v A) (similar : alike_each D idss srcs srcs'),
  (exists k, counts (guesses_all U srcs A) k) /\
  (forall H es ts, commit_each srcs es ts -> exists a, forall b, ends_all H ts A b <-> b = a) /\
  counts (guesses_all U srcs (Says true)) (2 ^ (64 * N.of_nat (length idss)) * 2 ^ (256 * N.of_nat (length U))).
Proof. exact c102_meaning. Qed.
Print Assumptions C102_meaning.
Example C102_meaning_case : polite_all [[p2]; [p2]] 162 1 3 compare /\ alike_each 2 [[p2]; [p2]] [srcd; srcd] [srcd'; srcd] /\
  commit_each [srcd; srcd] [0%N; 5%N] [treed; with_entropy treed 5] /\ ends_all toy [treed; with_entropy treed 5] compare false.
Proof. exact c102_meaning_case. Qed.

Theorem C102_numbers : forall n U q v (A : talks) idss srcs1 srcs2 k1 k2 all
  (strings : universe n U) (short : 162 <= n) (few : polite_all idss n q v A) (similar : alike_each 16 idss srcs1 srcs2)
  (work : (N.of_nat q <= 2 ^ 40)%N) (often : (N.of_nat v <= 2 ^ 20)%N) (many : (N.of_nat (length idss) <= 2 ^ 10)%N)
  (yes1 : counts (guesses_all U srcs1 A) k1) (yes2 : counts (guesses_all U srcs2 A) k2)
  (total : counts (guesses_all U srcs1 (Says true)) all),
  (k1 * 2 ^ 11 <= k2 * 2 ^ 11 + all)%N.
Proof. exact c102_numbers. Qed.
Print Assumptions C102_numbers.
Example C102_numbers_case : (N.of_nat 1 <= 2 ^ 40)%N /\ (N.of_nat 3 <= 2 ^ 20)%N /\ (N.of_nat (length [[p2]; [p2]]) <= 2 ^ 10)%N /\
  polite_all [[p2]; [p2]] 162 1 3 compare /\ alike_each 16 [[p2]; [p2]] [srcd; srcd] [srcd'; srcd].
Proof. exact c102_numbers_case. Qed.

Theorem C102_contains : forall n U q v src ids (A : talk) (few : polite ids n q v A),
  exists A', polite_all [ids] n q v A' /\ forall es f, guesses_all U [src] A' (es, f) <-> exists e, es = [e] /\ guesses_talk U src A (e, f).
Proof. exact c102_contains. Qed.
Print Assumptions C102_contains.
Example C102_contains_case : polite [p2] 162 2 3 curious.
Proof. exact c102_contains_case. Qed.
