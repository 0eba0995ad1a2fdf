(** Choosing between values: C115 *)
From Coq Require Import Permutation Sorting.Sorted.
From Verif Require Import Base BaseFacts OrdMap Strict Digest Merkle MpcAtoms MpcTree MpcBlock.
From Verif Require Import Engine EngineIo Schemes Seals Api Vesper Sha256 Ripemd Dumb Text Loops Orders Suites MpcTests Serde Steps Work Costs.
From Verif Require Import SpecHash SpecTree SpecMerkle SpecFull SpecValid SpecCommit SpecDerived SpecBlock.
From Verif Require Import SpecBuoy SpecStrings SpecCodec SpecLayout SpecEngine SpecMisc SpecSha SpecDerive SpecLocal SpecSession SpecRipemd SpecEnd Stl SpecStl SpecQuery SpecCount SpecText SpecOrders SpecFind SpecForm SpecGame SpecHideGame SpecViewGame SpecBlockGame SpecSuites SpecExtend SpecCompress SpecTests SpecSerde SpecTalk SpecMany SpecDepth SpecTarget SpecIdGame SpecLate SpecTransfer SpecNest SpecScript SpecSalt SpecOpen SpecChoice SpecPick SpecOffer SpecPlay SpecSeek SpecShare SpecSettled SpecResting SpecDraw SpecFuse SpecFeed.
From Verif Require Import TheoremsMpc TheoremsBlock TheoremsMerkle TheoremsMisc TheoremsMore TheoremsExt TheoremsAdv TheoremsLocal TheoremsSession TheoremsHash TheoremsHide TheoremsEnd TheoremsStl TheoremsQuery TheoremsCount TheoremsText TheoremsFrame TheoremsLoops TheoremsTight TheoremsOrders TheoremsFind TheoremsForm TheoremsGame TheoremsHideGame TheoremsViewGame TheoremsBlockGame TheoremsSuites TheoremsExtend TheoremsCompress TheoremsTests TheoremsSerde TheoremsTalk TheoremsMany TheoremsDepth TheoremsWork TheoremsTarget TheoremsAttack TheoremsIdGame TheoremsLate TheoremsTransfer TheoremsNest TheoremsCosts TheoremsScript TheoremsSalt TheoremsOpen TheoremsChoice TheoremsPick TheoremsOffer TheoremsPlay TheoremsSeek TheoremsShare TheoremsSettled TheoremsResting TheoremsDraw TheoremsFuse TheoremsFeed.
From Verif Require Import CasesMpc CasesMisc CasesMore CasesExt CasesAdv CasesLocal CasesSession CasesHash CasesHide CasesEnd CasesStl CasesQuery CasesCount CasesText CasesFrame CasesLoops CasesTight CasesOrders CasesFind CasesForm CasesGame CasesHideGame CasesViewGame CasesBlockGame CasesSuites CasesExtend CasesCompress CasesTests CasesSerde CasesTalk CasesMany CasesDepth CasesWork CasesTarget CasesAttack CasesIdGame CasesLate CasesTransfer CasesNest CasesCosts CasesScript CasesSalt CasesOpen CasesChoice CasesPick CasesOffer CasesPlay CasesSeek CasesShare CasesSettled CasesResting CasesDraw CasesFuse CasesFeed.
Local Open Scope nat_scope.

Theorem C115_choice : forall n U q r md S (p : dialogue) first k1 k2 (strings : universe n U) (allowed : fair n md S q r p)
  (yes1 : counts (guesses_side U md S r first p) k1) (yes2 : counts (guesses_side U md S r (negb first) p) k2),
  (k1 <= k2 + 2 * N.of_nat r * (N.of_nat q + 2 * (N.of_nat r - 1)) * S ^ (N.of_nat r - 1) * 2 ^ (256 * N.of_nat (length U)))%N.
Proof. exact c115_choice. Qed.
Print Assumptions C115_choice.
Example C115_choice_case : exists U k1 k2, universe 162 U /\ fair 162 Debug (2 ^ 256) 1 2 chooser /\
  counts (guesses_side U Debug (2 ^ 256) 2 true chooser) k1 /\ counts (guesses_side U Debug (2 ^ 256) 2 (negb true) chooser) k2.
Proof. exact c115_choice_case. Qed.

Theorem C115_meaning : forall n U q r md S (p : dialogue) first (strings : universe n U) (allowed : fair n md S q r p),
  (forall f es (len_f : length f = length U) (len_es : length es = r) (secrets : Forall (fun e => (e < S)%N) es),
     exists a, replies (table U f) md first es p a /\ forall b, replies (table U f) md first es p b -> b = a) /\
  (exists k, counts (guesses_side U md S r first p) k) /\
  counts (guesses_side U md S r first (Verdict true)) (S ^ N.of_nat r * 2 ^ (256 * N.of_nat (length U))).
Proof. exact c115_meaning. Qed.
Print Assumptions C115_meaning.
Example C115_meaning_case : fair 162 Debug (2 ^ 256) 1 2 chooser /\ Forall (fun e => (e < 2 ^ 256)%N) [3; 4]%N /\ replies flat Debug true [3; 4]%N chooser true.
Proof. exact c115_meaning_case. Qed.

Theorem C115_numbers : forall n U q r md (p : dialogue) first k1 k2 all (strings : universe n U) (allowed : fair n md (2 ^ 256) q r p)
  (work : (N.of_nat q <= 2 ^ 100)%N) (many : (N.of_nat r <= 2 ^ 20)%N)
  (yes1 : counts (guesses_side U md (2 ^ 256) r first p) k1) (yes2 : counts (guesses_side U md (2 ^ 256) r (negb first) p) k2)
  (total : counts (guesses_side U md (2 ^ 256) r first (Verdict true)) all),
  (k1 * 2 ^ 134 <= k2 * 2 ^ 134 + all)%N.
Proof. exact c115_numbers. Qed.
Print Assumptions C115_numbers.
Example C115_numbers_case : fair 162 Debug (2 ^ 256) 1 2 chooser /\ (N.of_nat 1 <= 2 ^ 100)%N /\ (N.of_nat 2 <= 2 ^ 20)%N.
Proof. exact c115_numbers_case. Qed.
