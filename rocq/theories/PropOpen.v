(** Values opened one by one: C114 *)
From Coq Require Import Permutation Sorting.Sorted.
From Verif Require Import Base BaseFacts OrdMap Strict Digest Merkle MpcAtoms MpcTree MpcBlock.
From Verif Require Import Engine EngineIo Schemes Seals Api Vesper Sha256 Ripemd Dumb Text Loops Orders Suites MpcTests Serde Steps Work Costs.
From Verif Require Import SpecHash SpecTree SpecMerkle SpecFull SpecValid SpecCommit SpecDerived SpecBlock.
From Verif Require Import SpecBuoy SpecStrings SpecCodec SpecLayout SpecEngine SpecMisc SpecSha SpecDerive SpecLocal SpecSession SpecRipemd SpecEnd Stl SpecStl SpecQuery SpecCount SpecText SpecOrders SpecFind SpecForm SpecGame SpecHideGame SpecViewGame SpecBlockGame SpecSuites SpecExtend SpecCompress SpecTests SpecSerde SpecTalk SpecMany SpecDepth SpecTarget SpecIdGame SpecLate SpecTransfer SpecNest SpecScript SpecSalt SpecOpen SpecChoice SpecPick SpecOffer SpecPlay SpecSeek SpecShare SpecSettled SpecResting SpecDraw SpecFuse SpecFeed.
From Verif Require Import TheoremsMpc TheoremsBlock TheoremsMerkle TheoremsMisc TheoremsMore TheoremsExt TheoremsAdv TheoremsLocal TheoremsSession TheoremsHash TheoremsHide TheoremsEnd TheoremsStl TheoremsQuery TheoremsCount TheoremsText TheoremsFrame TheoremsLoops TheoremsTight TheoremsOrders TheoremsFind TheoremsForm TheoremsGame TheoremsHideGame TheoremsViewGame TheoremsBlockGame TheoremsSuites TheoremsExtend TheoremsCompress TheoremsTests TheoremsSerde TheoremsTalk TheoremsMany TheoremsDepth TheoremsWork TheoremsTarget TheoremsAttack TheoremsIdGame TheoremsLate TheoremsTransfer TheoremsNest TheoremsCosts TheoremsScript TheoremsSalt TheoremsOpen TheoremsChoice TheoremsPick TheoremsOffer TheoremsPlay TheoremsSeek TheoremsShare TheoremsSettled TheoremsResting TheoremsDraw TheoremsFuse TheoremsFeed.
From Verif Require Import CasesMpc CasesMisc CasesMore CasesExt CasesAdv CasesLocal CasesSession CasesHash CasesHide CasesEnd CasesStl CasesQuery CasesCount CasesText CasesFrame CasesLoops CasesTight CasesOrders CasesFind CasesForm CasesGame CasesHideGame CasesViewGame CasesBlockGame CasesSuites CasesExtend CasesCompress CasesTests CasesSerde CasesTalk CasesMany CasesDepth CasesWork CasesTarget CasesAttack CasesIdGame CasesLate CasesTransfer CasesNest CasesCosts CasesScript CasesSalt CasesOpen CasesChoice CasesPick CasesOffer CasesPlay CasesSeek CasesShare CasesSettled CasesResting CasesDraw CasesFuse CasesFeed.
Local Open Scope nat_scope.

Theorem C114_hiding : forall n U q md S open closed (A : list bytes32 -> inquiry) vs ws r k1 k2 (strings : universe n U) (few : forall cs, discreet n q (A cs))
  (hidden1 : Forall (salted n md S) vs) (hidden2 : Forall (salted n md S) ws)
  (many1 : N.of_nat (length vs) = r) (many2 : N.of_nat (length ws) = r)
  (same : forall i, In i open -> nth_error vs i = nth_error ws i) (places : forall i, i < length vs -> In i open \/ In i closed)
  (yes1 : counts (guesses_open U md S open vs A) k1) (yes2 : counts (guesses_open U md S open ws A) k2),
  (k1 <= k2 + 2 * N.of_nat (length closed) * (N.of_nat q + 2 * (r - 1)) * S ^ (r - 1) * 2 ^ (256 * N.of_nat (length U)))%N.
Proof. exact c114_hiding. Qed.
Print Assumptions C114_hiding.
Example C114_hiding_case : exists U k1 k2, universe 162 U /\ (forall cs, discreet 162 1 (curious_coin cs)) /\
  Forall (salted 162 Debug (2 ^ 256)) (map coin [5; 6; 7]%N) /\ Forall (salted 162 Debug (2 ^ 256)) (map coin [8; 6; 9]%N) /\
  (forall i, In i [1] -> nth_error (map coin [5; 6; 7]%N) i = nth_error (map coin [8; 6; 9]%N) i) /\
  (forall i, i < 3 -> In i [1] \/ In i [0; 2]) /\
  counts (guesses_open U Debug (2 ^ 256) [1] (map coin [5; 6; 7]%N) curious_coin) k1 /\
  counts (guesses_open U Debug (2 ^ 256) [1] (map coin [8; 6; 9]%N) curious_coin) k2.
Proof. exact c114_hiding_case. Qed.

Theorem C114_meaning : forall n U md S open (A : list bytes32 -> inquiry) vs (strings : universe n U) (hidden : Forall (salted n md S) vs),
  (exists k, counts (guesses_open U md S open vs A) k) /\
  counts (guesses_open U md S open vs (fun _ => Conclude true)) (S ^ N.of_nat (length vs) * 2 ^ (256 * N.of_nat (length U))).
Proof. exact c114_meaning. Qed.
Print Assumptions C114_meaning.
Example C114_meaning_case : Forall (salted 162 Debug (2 ^ 256)) (map coin [5; 6; 7]%N) /\
  concludes toy [1] [3; 4; 5]%N (curious_coin [p1; p2; p3]) false.
Proof. exact c114_meaning_case. Qed.

Theorem C114_numbers : forall n U q md open (A : list bytes32 -> inquiry) vs ws k1 k2 all (strings : universe n U) (few : forall cs, discreet n q (A cs))
  (work : (N.of_nat q <= 2 ^ 100)%N) (hidden1 : Forall (salted n md (2 ^ 256)) vs) (hidden2 : Forall (salted n md (2 ^ 256)) ws)
  (same_length : length vs = length ws) (many : (N.of_nat (length vs) <= 2 ^ 20)%N)
  (same : forall i, In i open -> nth_error vs i = nth_error ws i)
  (yes1 : counts (guesses_open U md (2 ^ 256) open vs A) k1) (yes2 : counts (guesses_open U md (2 ^ 256) open ws A) k2)
  (total : counts (guesses_open U md (2 ^ 256) open vs (fun _ => Conclude true)) all),
  (k1 * 2 ^ 134 <= k2 * 2 ^ 134 + all)%N.
Proof. exact c114_numbers. Qed.
Print Assumptions C114_numbers.
Example C114_numbers_case : (N.of_nat 1 <= 2 ^ 100)%N /\ length (map coin [5; 6; 7]%N) = length (map coin [8; 6; 9]%N) /\
  (N.of_nat (length (map coin [5; 6; 7]%N)) <= 2 ^ 20)%N /\
  (forall i, In i [1] -> nth_error (map coin [5; 6; 7]%N) i = nth_error (map coin [8; 6; 9]%N) i).
Proof. exact c114_numbers_case. Qed.
