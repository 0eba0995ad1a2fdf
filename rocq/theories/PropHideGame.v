(** Hiding against few questions: C93 *)
From Coq Require Import Permutation Sorting.Sorted.
From Verif Require Import Base BaseFacts OrdMap Strict Digest Merkle MpcAtoms MpcTree MpcBlock.
From Verif Require Import Engine EngineIo Schemes Seals Api Vesper Sha256 Ripemd Dumb Text Loops Orders Suites MpcTests Serde Steps Work Costs.
From Verif Require Import SpecHash SpecTree SpecMerkle SpecFull SpecValid SpecCommit SpecDerived SpecBlock.
From Verif Require Import SpecBuoy SpecStrings SpecCodec SpecLayout SpecEngine SpecMisc SpecSha SpecDerive SpecLocal SpecSession SpecRipemd SpecEnd Stl SpecStl SpecQuery SpecCount SpecText SpecOrders SpecFind SpecForm SpecGame SpecHideGame SpecViewGame SpecBlockGame SpecSuites SpecExtend SpecCompress SpecTests SpecSerde SpecTalk SpecMany SpecDepth SpecTarget SpecIdGame SpecLate SpecTransfer SpecNest SpecScript SpecSalt SpecOpen SpecChoice SpecPick SpecOffer SpecPlay SpecSeek SpecShare SpecSettled SpecResting SpecDraw SpecFuse SpecFeed.
From Verif Require Import TheoremsMpc TheoremsBlock TheoremsMerkle TheoremsMisc TheoremsMore TheoremsExt TheoremsAdv TheoremsLocal TheoremsSession TheoremsHash TheoremsHide TheoremsEnd TheoremsStl TheoremsQuery TheoremsCount TheoremsText TheoremsFrame TheoremsLoops TheoremsTight TheoremsOrders TheoremsFind TheoremsForm TheoremsGame TheoremsHideGame TheoremsViewGame TheoremsBlockGame TheoremsSuites TheoremsExtend TheoremsCompress TheoremsTests TheoremsSerde TheoremsTalk TheoremsMany TheoremsDepth TheoremsWork TheoremsTarget TheoremsAttack TheoremsIdGame TheoremsLate TheoremsTransfer TheoremsNest TheoremsCosts TheoremsScript TheoremsSalt TheoremsOpen TheoremsChoice TheoremsPick TheoremsOffer TheoremsPlay TheoremsSeek TheoremsShare TheoremsSettled TheoremsResting TheoremsDraw TheoremsFuse TheoremsFeed.
From Verif Require Import CasesMpc CasesMisc CasesMore CasesExt CasesAdv CasesLocal CasesSession CasesHash CasesHide CasesEnd CasesStl CasesQuery CasesCount CasesText CasesFrame CasesLoops CasesTight CasesOrders CasesFind CasesForm CasesGame CasesHideGame CasesViewGame CasesBlockGame CasesSuites CasesExtend CasesCompress CasesTests CasesSerde CasesTalk CasesMany CasesDepth CasesWork CasesTarget CasesAttack CasesIdGame CasesLate CasesTransfer CasesNest CasesCosts CasesScript CasesSalt CasesOpen CasesChoice CasesPick CasesOffer CasesPlay CasesSeek CasesShare CasesSettled CasesResting CasesDraw CasesFuse CasesFeed.
Local Open Scope nat_scope.

Theorem C93_blind : forall n U q D (A : bytes32 -> prog bool) src k k0 (strings : universe n U) (short : 162 <= n)
  (few : forall c, modest n q (A c)) (valid : valid_source src) (hidden : blinded D src)
  (real : counts (guesses U src A) k) (ideal : counts (guesses_blind U A) k0),
  let error := ((N.of_nat q * 2 ^ 192 + 2 ^ 127 * (2 * 2 ^ N.of_nat D + 2) ^ 2) * 2 ^ (256 * N.of_nat (length U)))%N in
  (k * 2 ^ 192 <= k0 + error /\ k0 <= k * 2 ^ 192 + error)%N.
Proof. exact c93_blind. Qed.
Print Assumptions C93_blind.
Example C93_blind_case : exists U k k0, universe 162 U /\ (forall c, modest 162 1 (guesser c)) /\ valid_source srcd /\ blinded 3 srcd /\
  counts (guesses U srcd guesser) k /\ counts (guesses_blind U guesser) k0.
Proof. exact c93_blind_case. Qed.

Theorem C93_hiding : forall n U q D (A : bytes32 -> prog bool) src1 src2 k1 k2 (strings : universe n U) (short : 162 <= n)
  (few : forall c, modest n q (A c)) (valid1 : valid_source src1) (valid2 : valid_source src2)
  (hidden1 : blinded D src1) (hidden2 : blinded D src2)
  (yes1 : counts (guesses U src1 A) k1) (yes2 : counts (guesses U src2 A) k2),
  (k1 * 2 ^ 64 <= k2 * 2 ^ 64 + (2 * N.of_nat q * 2 ^ 64 + (2 * 2 ^ N.of_nat D + 2) ^ 2) * 2 ^ (256 * N.of_nat (length U)))%N.
Proof. exact c93_hiding. Qed.
Print Assumptions C93_hiding.
Example C93_hiding_case : exists U k1 k2, universe 162 U /\ (forall c, modest 162 1 (guesser c)) /\
  valid_source srcd /\ valid_source srcd' /\ blinded 3 srcd /\ blinded 3 srcd' /\ ms_messages srcd <> ms_messages srcd' /\
  counts (guesses U srcd guesser) k1 /\ counts (guesses U srcd' guesser) k2.
Proof. exact c93_hiding_case. Qed.

Theorem C93_search : forall n U D src1 src2 t1 t2 (strings : universe n U) (short : 162 <= n)
  (valid1 : valid_source src1) (valid2 : valid_source src2)
  (drawn1 : ms_static_entropy src1 = None) (drawn2 : ms_static_entropy src2 = None)
  (made1 : try_commit src1 (Some 0%N) = Ret (Ok t1)) (made2 : try_commit src2 (Some 0%N) = Ret (Ok t2))
  (depth1 : mt_depth t1 <= D) (depth2 : mt_depth t2 <= D) (different : ms_messages src1 <> ms_messages src2),
  exists A q, (forall c, modest n q (A c)) /\ N.of_nat q = (2 ^ 64 * (2 * 2 ^ N.of_nat D + 2))%N /\
    forall k1 k2, counts (guesses U src1 A) k1 -> counts (guesses U src2 A) k2 ->
      (k1 = 2 ^ 64 * 2 ^ (256 * N.of_nat (length U)) /\
       k2 * 2 ^ 257 <= 2 ^ 64 * ((2 ^ 64 + 1) * (2 * 2 ^ N.of_nat D + 2)) ^ 2 * 2 ^ (256 * N.of_nat (length U)))%N.
Proof. exact c93_search. Qed.
Print Assumptions C93_search.
Example C93_search_case : exists U t1 t2, universe 162 U /\ valid_source srcd /\ valid_source srcd' /\
  try_commit srcd (Some 0%N) = Ret (Ok t1) /\ try_commit srcd' (Some 0%N) = Ret (Ok t2) /\ mt_depth t1 <= 3 /\ mt_depth t2 <= 3 /\
  ms_messages srcd <> ms_messages srcd'.
Proof. exact c93_search_case. Qed.

Theorem C93_full : forall n U D src1 src2 t1 t2 (strings : universe n U) (short : 162 <= n)
  (valid1 : valid_source src1) (valid2 : valid_source src2)
  (drawn1 : ms_static_entropy src1 = None) (drawn2 : ms_static_entropy src2 = None)
  (made1 : try_commit src1 (Some 0%N) = Ret (Ok t1)) (made2 : try_commit src2 (Some 0%N) = Ret (Ok t2))
  (depth1 : mt_depth t1 <= D) (depth2 : mt_depth t2 <= D) (different : ms_messages src1 <> ms_messages src2)
  (full : (N.of_nat (length (ms_messages src1)) = 2 ^ N.of_nat (mt_depth t1))%N),
  exists A, (forall c, modest n (2 * 2 ^ D + 2) (A c)) /\
    forall k1 k2, counts (guesses U src1 A) k1 -> counts (guesses U src2 A) k2 ->
      (k1 = 2 ^ 64 * 2 ^ (256 * N.of_nat (length U)) /\
       k2 * 2 ^ 257 <= 2 ^ 64 * (2 * (2 * 2 ^ N.of_nat D + 2)) ^ 2 * 2 ^ (256 * N.of_nat (length U)))%N.
Proof. exact c93_full. Qed.
Print Assumptions C93_full.
Example C93_full_case : exists U t1 t2,
  let one := MultiSource Sha256t 0 [(p1, m1)] None in let other := MultiSource Sha256t 0 [(p1, m2)] None in
  universe 162 U /\ valid_source one /\ valid_source other /\
  try_commit one (Some 0%N) = Ret (Ok t1) /\ try_commit other (Some 0%N) = Ret (Ok t2) /\ mt_depth t1 <= 0 /\ mt_depth t2 <= 0 /\
  ms_messages one <> ms_messages other /\ (N.of_nat (length (ms_messages one)) = 2 ^ N.of_nat (mt_depth t1))%N.
Proof. exact c93_full_case. Qed.

Theorem C93_meaning : forall n U (A : bytes32 -> prog bool) src D (strings : universe n U) (valid : valid_source src) (hidden : blinded D src),
  (exists k, counts (guesses U src A) k) /\ (exists k0, counts (guesses_blind U A) k0) /\
  counts (guesses U src (fun _ => Done true)) (2 ^ 64 * 2 ^ (256 * N.of_nat (length U))) /\
  counts (guesses_blind U (fun _ => Done true)) (2 ^ 256 * 2 ^ (256 * N.of_nat (length U))).
Proof. exact c93_meaning. Qed.
Print Assumptions C93_meaning.
Example C93_meaning_case : valid_source srcd /\ blinded 3 srcd.
Proof. exact c93_meaning_case. Qed.

Theorem C93_numbers : forall n U q (A : bytes32 -> prog bool) src1 src2 k1 k2 all (strings : universe n U) (short : 162 <= n)
  (few : forall c, modest n q (A c)) (work : (N.of_nat q <= 2 ^ 40)%N) (valid1 : valid_source src1) (valid2 : valid_source src2)
  (hidden1 : blinded 16 src1) (hidden2 : blinded 16 src2)
  (yes1 : counts (guesses U src1 A) k1) (yes2 : counts (guesses U src2 A) k2)
  (total : counts (guesses U src1 (fun _ => Done true)) all),
  (k1 * 2 ^ 22 <= k2 * 2 ^ 22 + all)%N.
Proof. exact c93_numbers. Qed.
Print Assumptions C93_numbers.
Example C93_numbers_case : (N.of_nat 1 <= 2 ^ 40)%N /\ blinded 16 srcd /\ blinded 16 srcd'.
Proof. exact c93_numbers_case. Qed.
