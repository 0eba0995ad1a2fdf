(** What a Merkle proof tells about the other messages: C94 *)
From Coq Require Import Permutation Sorting.Sorted.
From Verif Require Import Base BaseFacts OrdMap Strict Digest Merkle MpcAtoms MpcTree MpcBlock.
From Verif Require Import Engine EngineIo Schemes Seals Api Vesper Sha256 Ripemd Dumb Text Loops Orders Suites MpcTests Serde Steps Work Costs.
From Verif Require Import SpecHash SpecTree SpecMerkle SpecFull SpecValid SpecCommit SpecDerived SpecBlock.
From Verif Require Import SpecBuoy SpecStrings SpecCodec SpecLayout SpecEngine SpecMisc SpecSha SpecDerive SpecLocal SpecSession SpecRipemd SpecEnd Stl SpecStl SpecQuery SpecCount SpecText SpecOrders SpecFind SpecForm SpecGame SpecHideGame SpecViewGame SpecBlockGame SpecSuites SpecExtend SpecCompress SpecTests SpecSerde SpecTalk SpecMany SpecDepth SpecTarget SpecIdGame SpecLate SpecTransfer SpecNest SpecScript SpecSalt SpecOpen SpecChoice SpecPick SpecOffer SpecPlay SpecSeek SpecShare SpecSettled SpecResting SpecDraw SpecFuse SpecFeed.
From Verif Require Import TheoremsMpc TheoremsBlock TheoremsMerkle TheoremsMisc TheoremsMore TheoremsExt TheoremsAdv TheoremsLocal TheoremsSession TheoremsHash TheoremsHide TheoremsEnd TheoremsStl TheoremsQuery TheoremsCount TheoremsText TheoremsFrame TheoremsLoops TheoremsTight TheoremsOrders TheoremsFind TheoremsForm TheoremsGame TheoremsHideGame TheoremsViewGame TheoremsBlockGame TheoremsSuites TheoremsExtend TheoremsCompress TheoremsTests TheoremsSerde TheoremsTalk TheoremsMany TheoremsDepth TheoremsWork TheoremsTarget TheoremsAttack TheoremsIdGame TheoremsLate TheoremsTransfer TheoremsNest TheoremsCosts TheoremsScript TheoremsSalt TheoremsOpen TheoremsChoice TheoremsPick TheoremsOffer TheoremsPlay TheoremsSeek TheoremsShare TheoremsSettled TheoremsResting TheoremsDraw TheoremsFuse TheoremsFeed.
From Verif Require Import CasesMpc CasesMisc CasesMore CasesExt CasesAdv CasesLocal CasesSession CasesHash CasesHide CasesEnd CasesStl CasesQuery CasesCount CasesText CasesFrame CasesLoops CasesTight CasesOrders CasesFind CasesForm CasesGame CasesHideGame CasesViewGame CasesBlockGame CasesSuites CasesExtend CasesCompress CasesTests CasesSerde CasesTalk CasesMany CasesDepth CasesWork CasesTarget CasesAttack CasesIdGame CasesLate CasesTransfer CasesNest CasesCosts CasesScript CasesSalt CasesOpen CasesChoice CasesPick CasesOffer CasesPlay CasesSeek CasesShare CasesSettled CasesResting CasesDraw CasesFuse CasesFeed.
Local Open Scope nat_scope.

Theorem C94_hidden : forall n U q D (A : merkle_proof -> prog bool) src1 src2 t1 t2 pid msg1 msg2 k1 k2
  (strings : universe n U) (short : 162 <= n) (few : forall pf, modest n q (A pf))
  (valid1 : valid_source src1) (valid2 : valid_source src2)
  (drawn1 : ms_static_entropy src1 = None) (drawn2 : ms_static_entropy src2 = None)
  (made1 : try_commit src1 (Some 0%N) = Ret (Ok t1)) (made2 : try_commit src2 (Some 0%N) = Ret (Ok t2))
  (same_method : ms_method src1 = ms_method src2) (same_depth : mt_depth t1 = mt_depth t2)
  (same_cofactor : mt_cofactor t1 = mt_cofactor t2) (depth : mt_depth t1 <= D)
  (own1 : In (pid, msg1) (ms_messages src1)) (own2 : In (pid, msg2) (ms_messages src2))
  (covered : screened t1 t2 (s_pos pid (mt_cofactor t1) (mt_depth t1)))
  (yes1 : counts (guesses_proof U src1 pid A) k1) (yes2 : counts (guesses_proof U src2 pid A) k2),
  (k1 * 2 ^ 63 <= k2 * 2 ^ 63 + (N.of_nat q * 2 ^ 64 + (2 * 2 ^ N.of_nat D + 2) ^ 2) * 2 ^ (256 * N.of_nat (length U)))%N.
Proof. exact c94_hidden. Qed.
Print Assumptions C94_hidden.
Example C94_hidden_case : exists U k1 k2, universe 162 U /\ (forall pf, modest 162 1 (prober pf)) /\
  valid_source srcd /\ valid_source srcd' /\ ms_static_entropy srcd = None /\ ms_static_entropy srcd' = None /\
  try_commit srcd (Some 0%N) = Ret (Ok treed) /\ try_commit srcd' (Some 0%N) = Ret (Ok treed') /\
  ms_method srcd = ms_method srcd' /\ mt_depth treed = mt_depth treed' /\ mt_cofactor treed = mt_cofactor treed' /\ mt_depth treed <= 2 /\
  In (p2, m2) (ms_messages srcd) /\ In (p2, m2) (ms_messages srcd') /\
  screened treed treed' (s_pos p2 (mt_cofactor treed) (mt_depth treed)) /\ slot_of treed 1 <> slot_of treed' 1 /\
  counts (guesses_proof U srcd p2 prober) k1 /\ counts (guesses_proof U srcd' p2 prober) k2.
Proof. exact c94_hidden_case. Qed.

Theorem C94_seen : forall n U D src1 src2 t1 t2 pid msg1 msg2 k j (strings : universe n U) (short : 162 <= n)
  (valid1 : valid_source src1) (valid2 : valid_source src2)
  (drawn1 : ms_static_entropy src1 = None) (drawn2 : ms_static_entropy src2 = None)
  (made1 : try_commit src1 (Some 0%N) = Ret (Ok t1)) (made2 : try_commit src2 (Some 0%N) = Ret (Ok t2))
  (same_depth : mt_depth t1 = mt_depth t2) (same_cofactor : mt_cofactor t1 = mt_cofactor t2) (depth : mt_depth t1 <= D)
  (own1 : In (pid, msg1) (ms_messages src1)) (own2 : In (pid, msg2) (ms_messages src2)) (height : k < mt_depth t1)
  (full : forall i, beside (s_pos pid (mt_cofactor t1) (mt_depth t1)) k i -> slot_of t1 i <> None)
  (there : beside (s_pos pid (mt_cofactor t1) (mt_depth t1)) k j) (different : slot_of t1 j <> slot_of t2 j),
  exists A, (forall pf, modest n (2 * 2 ^ k) (A pf)) /\
    forall k1 k2, counts (guesses_proof U src1 pid A) k1 -> counts (guesses_proof U src2 pid A) k2 ->
      (k1 = 2 ^ 64 * 2 ^ (256 * N.of_nat (length U)) /\
       k2 * 2 ^ 257 <= 2 ^ 64 * (2 * (2 * 2 ^ N.of_nat D + 2)) ^ 2 * 2 ^ (256 * N.of_nat (length U)))%N.
Proof. exact c94_seen. Qed.
Print Assumptions C94_seen.
Example C94_seen_case : exists U, universe 162 U /\ valid_source srcd /\ valid_source srce /\
  try_commit srcd (Some 0%N) = Ret (Ok treed) /\ try_commit srce (Some 0%N) = Ret (Ok treee) /\
  mt_depth treed = mt_depth treee /\ mt_cofactor treed = mt_cofactor treee /\ mt_depth treed <= 2 /\
  In (p3, m1) (ms_messages srcd) /\ In (p3, m1) (ms_messages srce) /\ 0 < mt_depth treed /\
  (forall i, beside (s_pos p3 (mt_cofactor treed) (mt_depth treed)) 0 i -> slot_of treed i <> None) /\
  beside (s_pos p3 (mt_cofactor treed) (mt_depth treed)) 0 2 /\ slot_of treed 2 <> slot_of treee 2.
Proof. exact c94_seen_case. Qed.

Theorem C94_meaning : forall n U (A : merkle_proof -> prog bool) src t pid msg (strings : universe n U) (valid : valid_source src)
  (drawn : ms_static_entropy src = None) (made : try_commit src (Some 0%N) = Ret (Ok t)) (own : In (pid, msg) (ms_messages src)),
  (exists k, counts (guesses_proof U src pid A) k) /\
  counts (guesses_proof U src pid (fun _ => Done true)) (2 ^ 64 * 2 ^ (256 * N.of_nat (length U))).
Proof. exact c94_meaning. Qed.
Print Assumptions C94_meaning.
Example C94_meaning_case : valid_source srcd /\ try_commit srcd (Some 0%N) = Ret (Ok treed) /\ In (p2, m2) (ms_messages srcd).
Proof. exact c94_meaning_case. Qed.

Theorem C94_numbers : forall n U q (A : merkle_proof -> prog bool) src1 src2 t1 t2 pid msg1 msg2 k1 k2 all
  (strings : universe n U) (short : 162 <= n) (few : forall pf, modest n q (A pf)) (work : (N.of_nat q <= 2 ^ 40)%N)
  (valid1 : valid_source src1) (valid2 : valid_source src2)
  (drawn1 : ms_static_entropy src1 = None) (drawn2 : ms_static_entropy src2 = None)
  (made1 : try_commit src1 (Some 0%N) = Ret (Ok t1)) (made2 : try_commit src2 (Some 0%N) = Ret (Ok t2))
  (same_method : ms_method src1 = ms_method src2) (same_depth : mt_depth t1 = mt_depth t2)
  (same_cofactor : mt_cofactor t1 = mt_cofactor t2) (depth : mt_depth t1 <= 16)
  (own1 : In (pid, msg1) (ms_messages src1)) (own2 : In (pid, msg2) (ms_messages src2))
  (covered : screened t1 t2 (s_pos pid (mt_cofactor t1) (mt_depth t1)))
  (yes1 : counts (guesses_proof U src1 pid A) k1) (yes2 : counts (guesses_proof U src2 pid A) k2)
  (total : counts (guesses_proof U src1 pid (fun _ => Done true)) all),
  (k1 * 2 ^ 22 <= k2 * 2 ^ 22 + all)%N.
Proof. exact c94_numbers. Qed.
Print Assumptions C94_numbers.
Example C94_numbers_case : (N.of_nat 1 <= 2 ^ 40)%N /\ mt_depth treed <= 16 /\
  screened treed treed' (s_pos p2 (mt_cofactor treed) (mt_depth treed)).
Proof. exact c94_numbers_case. Qed.
