(** What a partially revealed block tells about the hidden messages: C95 *)
From Coq Require Import Permutation Sorting.Sorted.
From Verif Require Import Base BaseFacts OrdMap Strict Digest Merkle MpcAtoms MpcTree MpcBlock.
From Verif Require Import Engine EngineIo Schemes Seals Api Vesper Sha256 Ripemd Dumb Text Loops Orders Suites MpcTests Serde Steps Work Costs.
From Verif Require Import SpecHash SpecTree SpecMerkle SpecFull SpecValid SpecCommit SpecDerived SpecBlock.
From Verif Require Import SpecBuoy SpecStrings SpecCodec SpecLayout SpecEngine SpecMisc SpecSha SpecDerive SpecLocal SpecSession SpecRipemd SpecEnd Stl SpecStl SpecQuery SpecCount SpecText SpecOrders SpecFind SpecForm SpecGame SpecHideGame SpecViewGame SpecBlockGame SpecSuites SpecExtend SpecCompress SpecTests SpecSerde SpecTalk SpecMany SpecDepth SpecTarget SpecIdGame SpecLate SpecTransfer SpecNest SpecScript SpecSalt SpecOpen SpecChoice SpecPick SpecOffer SpecPlay SpecSeek SpecShare SpecSettled SpecResting SpecDraw SpecFuse SpecFeed.
From Verif Require Import TheoremsMpc TheoremsBlock TheoremsMerkle TheoremsMisc TheoremsMore TheoremsExt TheoremsAdv TheoremsLocal TheoremsSession TheoremsHash TheoremsHide TheoremsEnd TheoremsStl TheoremsQuery TheoremsCount TheoremsText TheoremsFrame TheoremsLoops TheoremsTight TheoremsOrders TheoremsFind TheoremsForm TheoremsGame TheoremsHideGame TheoremsViewGame TheoremsBlockGame TheoremsSuites TheoremsExtend TheoremsCompress TheoremsTests TheoremsSerde TheoremsTalk TheoremsMany TheoremsDepth TheoremsWork TheoremsTarget TheoremsAttack TheoremsIdGame TheoremsLate TheoremsTransfer TheoremsNest TheoremsCosts TheoremsScript TheoremsSalt TheoremsOpen TheoremsChoice TheoremsPick TheoremsOffer TheoremsPlay TheoremsSeek TheoremsShare TheoremsSettled TheoremsResting TheoremsDraw TheoremsFuse TheoremsFeed.
From Verif Require Import CasesMpc CasesMisc CasesMore CasesExt CasesAdv CasesLocal CasesSession CasesHash CasesHide CasesEnd CasesStl CasesQuery CasesCount CasesText CasesFrame CasesLoops CasesTight CasesOrders CasesFind CasesForm CasesGame CasesHideGame CasesViewGame CasesBlockGame CasesSuites CasesExtend CasesCompress CasesTests CasesSerde CasesTalk CasesMany CasesDepth CasesWork CasesTarget CasesAttack CasesIdGame CasesLate CasesTransfer CasesNest CasesCosts CasesScript CasesSalt CasesOpen CasesChoice CasesPick CasesOffer CasesPlay CasesSeek CasesShare CasesSettled CasesResting CasesDraw CasesFuse CasesFeed.
Local Open Scope nat_scope.

Theorem C95_hidden : forall n U q D (A : merkle_block -> prog bool) src1 src2 t1 t2 ids k1 k2
  (strings : universe n U) (short : 162 <= n) (few : forall b, modest n q (A b))
  (valid1 : valid_source src1) (valid2 : valid_source src2)
  (drawn1 : ms_static_entropy src1 = None) (drawn2 : ms_static_entropy src2 = None)
  (made1 : try_commit src1 (Some 0%N) = Ret (Ok t1)) (made2 : try_commit src2 (Some 0%N) = Ret (Ok t2))
  (same_method : ms_method src1 = ms_method src2) (same_depth : mt_depth t1 = mt_depth t2)
  (same_cofactor : mt_cofactor t1 = mt_cofactor t2) (depth : mt_depth t1 <= D)
  (shared : forall p, In p ids -> exists m, In (p, m) (ms_messages src1) /\ In (p, m) (ms_messages src2))
  (covered : screened_block t1 t2 ids)
  (yes1 : counts (guesses_block U src1 ids A) k1) (yes2 : counts (guesses_block U src2 ids A) k2),
  (k1 * 2 ^ 63 <= k2 * 2 ^ 63 + (N.of_nat q * 2 ^ 64 + (2 * 2 ^ N.of_nat D + 2) ^ 2) * 2 ^ (256 * N.of_nat (length U)))%N.
Proof. exact c95_hidden. Qed.
Print Assumptions C95_hidden.
Example C95_hidden_case : exists U k1 k2, universe 162 U /\ (forall b, modest 162 1 (seeker b)) /\
  valid_source srcd /\ valid_source srcd' /\ ms_static_entropy srcd = None /\ ms_static_entropy srcd' = None /\
  try_commit srcd (Some 0%N) = Ret (Ok treed) /\ try_commit srcd' (Some 0%N) = Ret (Ok treed') /\
  ms_method srcd = ms_method srcd' /\ mt_depth treed = mt_depth treed' /\ mt_cofactor treed = mt_cofactor treed' /\ mt_depth treed <= 2 /\
  (forall p, In p [p2] -> exists m, In (p, m) (ms_messages srcd) /\ In (p, m) (ms_messages srcd')) /\
  screened_block treed treed' [p2] /\ concealed_top treed [p2] 1 0 /\ concealed_top treed [p2] 0 3 /\ slot_of treed 1 <> slot_of treed' 1 /\
  counts (guesses_block U srcd [p2] seeker) k1 /\ counts (guesses_block U srcd' [p2] seeker) k2.
Proof. exact c95_hidden_case. Qed.

Theorem C95_meaning : forall n U (A : merkle_block -> prog bool) src t ids (strings : universe n U) (valid : valid_source src)
  (drawn : ms_static_entropy src = None) (made : try_commit src (Some 0%N) = Ret (Ok t))
  (own : forall p, In p ids -> exists m, In (p, m) (ms_messages src)),
  (exists k, counts (guesses_block U src ids A) k) /\
  counts (guesses_block U src ids (fun _ => Done true)) (2 ^ 64 * 2 ^ (256 * N.of_nat (length U))).
Proof. exact c95_meaning. Qed.
Print Assumptions C95_meaning.
Example C95_meaning_case : valid_source srcd /\ try_commit srcd (Some 0%N) = Ret (Ok treed) /\
  (forall p, In p [p2; p3] -> exists m, In (p, m) (ms_messages srcd)).
Proof. exact c95_meaning_case. Qed.

Theorem C95_numbers : forall n U q (A : merkle_block -> prog bool) src1 src2 t1 t2 ids k1 k2 all
  (strings : universe n U) (short : 162 <= n) (few : forall b, modest n q (A b)) (work : (N.of_nat q <= 2 ^ 40)%N)
  (valid1 : valid_source src1) (valid2 : valid_source src2)
  (drawn1 : ms_static_entropy src1 = None) (drawn2 : ms_static_entropy src2 = None)
  (made1 : try_commit src1 (Some 0%N) = Ret (Ok t1)) (made2 : try_commit src2 (Some 0%N) = Ret (Ok t2))
  (same_method : ms_method src1 = ms_method src2) (same_depth : mt_depth t1 = mt_depth t2)
  (same_cofactor : mt_cofactor t1 = mt_cofactor t2) (depth : mt_depth t1 <= 16)
  (shared : forall p, In p ids -> exists m, In (p, m) (ms_messages src1) /\ In (p, m) (ms_messages src2))
  (covered : screened_block t1 t2 ids)
  (yes1 : counts (guesses_block U src1 ids A) k1) (yes2 : counts (guesses_block U src2 ids A) k2)
  (total : counts (guesses_block U src1 ids (fun _ => Done true)) all),
  (k1 * 2 ^ 22 <= k2 * 2 ^ 22 + all)%N.
Proof. exact c95_numbers. Qed.
Print Assumptions C95_numbers.
Example C95_numbers_case : (N.of_nat 1 <= 2 ^ 40)%N /\ mt_depth treed <= 16 /\ screened_block treed treed' [p2].
Proof. exact c95_numbers_case. Qed.

Theorem C95_seen : forall n U D src1 src2 t1 t2 ids k a j (strings : universe n U) (short : 162 <= n)
  (valid1 : valid_source src1) (valid2 : valid_source src2)
  (drawn1 : ms_static_entropy src1 = None) (drawn2 : ms_static_entropy src2 = None)
  (made1 : try_commit src1 (Some 0%N) = Ret (Ok t1)) (made2 : try_commit src2 (Some 0%N) = Ret (Ok t2))
  (same_depth : mt_depth t1 = mt_depth t2) (same_cofactor : mt_cofactor t1 = mt_cofactor t2) (depth : mt_depth t1 <= D)
  (shared : forall p, In p ids -> exists m, In (p, m) (ms_messages src1) /\ In (p, m) (ms_messages src2))
  (top : concealed_top t1 ids k a) (full : forall i, within k a i -> slot_of t1 i <> None)
  (there : within k a j) (different : slot_of t1 j <> slot_of t2 j),
  exists A, (forall b, modest n (2 * 2 ^ k) (A b)) /\
    forall k1 k2, counts (guesses_block U src1 ids A) k1 -> counts (guesses_block U src2 ids A) k2 ->
      (k1 = 2 ^ 64 * 2 ^ (256 * N.of_nat (length U)) /\
       k2 * 2 ^ 257 <= 2 ^ 64 * (2 * (2 * 2 ^ N.of_nat D + 2)) ^ 2 * 2 ^ (256 * N.of_nat (length U)))%N.
Proof. exact c95_seen. Qed.
Print Assumptions C95_seen.
Example C95_seen_case : exists U, universe 162 U /\ valid_source srcd /\ valid_source srce /\
  try_commit srcd (Some 0%N) = Ret (Ok treed) /\ try_commit srce (Some 0%N) = Ret (Ok treee) /\
  mt_depth treed = mt_depth treee /\ mt_cofactor treed = mt_cofactor treee /\ mt_depth treed <= 2 /\
  (forall p, In p [p3] -> exists m, In (p, m) (ms_messages srcd) /\ In (p, m) (ms_messages srce)) /\
  concealed_top treed [p3] 0 2 /\ (forall i, within 0 2 i -> slot_of treed i <> None) /\ within 0 2 2 /\ slot_of treed 2 <> slot_of treee 2.
Proof. exact c95_seen_case. Qed.
