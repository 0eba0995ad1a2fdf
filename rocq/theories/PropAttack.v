(** Attacks which reach the bounds: C106 *)
From Coq Require Import Permutation Sorting.Sorted.
From Verif Require Import Base BaseFacts OrdMap Strict Digest Merkle MpcAtoms MpcTree MpcBlock.
From Verif Require Import Engine EngineIo Schemes Seals Api Vesper Sha256 Ripemd Dumb Text Loops Orders Suites MpcTests Serde Steps Work Costs.
From Verif Require Import SpecHash SpecTree SpecMerkle SpecFull SpecValid SpecCommit SpecDerived SpecBlock.
From Verif Require Import SpecBuoy SpecStrings SpecCodec SpecLayout SpecEngine SpecMisc SpecSha SpecDerive SpecLocal SpecSession SpecRipemd SpecEnd Stl SpecStl SpecQuery SpecCount SpecText SpecOrders SpecFind SpecForm SpecGame SpecHideGame SpecViewGame SpecBlockGame SpecSuites SpecExtend SpecCompress SpecTests SpecSerde SpecTalk SpecMany SpecDepth SpecTarget SpecIdGame SpecLate SpecTransfer SpecNest SpecScript SpecSalt SpecOpen SpecChoice SpecPick SpecOffer SpecPlay SpecSeek SpecShare SpecSettled SpecResting SpecDraw SpecFuse SpecFeed.
From Verif Require Import TheoremsMpc TheoremsBlock TheoremsMerkle TheoremsMisc TheoremsMore TheoremsExt TheoremsAdv TheoremsLocal TheoremsSession TheoremsHash TheoremsHide TheoremsEnd TheoremsStl TheoremsQuery TheoremsCount TheoremsText TheoremsFrame TheoremsLoops TheoremsTight TheoremsOrders TheoremsFind TheoremsForm TheoremsGame TheoremsHideGame TheoremsViewGame TheoremsBlockGame TheoremsSuites TheoremsExtend TheoremsCompress TheoremsTests TheoremsSerde TheoremsTalk TheoremsMany TheoremsDepth TheoremsWork TheoremsTarget TheoremsAttack TheoremsIdGame TheoremsLate TheoremsTransfer TheoremsNest TheoremsCosts TheoremsScript TheoremsSalt TheoremsOpen TheoremsChoice TheoremsPick TheoremsOffer TheoremsPlay TheoremsSeek TheoremsShare TheoremsSettled TheoremsResting TheoremsDraw TheoremsFuse TheoremsFeed.
From Verif Require Import CasesMpc CasesMisc CasesMore CasesExt CasesAdv CasesLocal CasesSession CasesHash CasesHide CasesEnd CasesStl CasesQuery CasesCount CasesText CasesFrame CasesLoops CasesTight CasesOrders CasesFind CasesForm CasesGame CasesHideGame CasesViewGame CasesBlockGame CasesSuites CasesExtend CasesCompress CasesTests CasesSerde CasesTalk CasesMany CasesDepth CasesWork CasesTarget CasesAttack CasesIdGame CasesLate CasesTransfer CasesNest CasesCosts CasesScript CasesSalt CasesOpen CasesChoice CasesPick CasesOffer CasesPlay CasesSeek CasesShare CasesSettled CasesResting CasesDraw CasesFuse CasesFeed.
Local Open Scope nat_scope.

Theorem C106_collide : forall n U q pf pid
  (strings : universe n U) (short : 162 <= n) (enough : (N.of_nat q <= 2 ^ 256)%N)
  (valid : valid_proof pf) (depth : length (mp_path pf) <= 31) (place : mp_pos pf = s_pos pid (mp_cofactor pf) (length (mp_path pf))),
  exists adversary : prog (merkle_proof * bytes32 * merkle_proof * bytes32 * bytes32), modest n (q + 1) adversary /\
  rare U (fun H => ~ let '(pf1, m1, pf2, m2, pid) := exec H adversary in
            valid_proof pf1 /\ valid_proof pf2 /\ m1 <> m2 /\
            exists c, forall md, @convolve H md pf1 pid m1 = Ret (Ok c) /\ @convolve H md pf2 pid m2 = Ret (Ok c))
       (2 ^ 257) (2 ^ 257 + N.of_nat q * N.of_nat (q - 1)).
Proof. exact c106_collide. Qed.
Print Assumptions C106_collide.
Example C106_collide_case : exists U, universe 162 U /\ (N.of_nat 2 <= 2 ^ 256)%N /\ valid_proof pf1 /\ length (mp_path pf1) <= 31 /\
  mp_pos pf1 = s_pos p1 (mp_cofactor pf1) (length (mp_path pf1)) /\
  exec flat (p_pair pf1 p1 [m1; m2]) = (pf1, m1, pf1, m2, p1) /\ exec sha256 (p_pair pf1 p1 [m1; m2]) = (pf1, p1, pf1, p1, p1).
Proof. exact c106_collide_case. Qed.

Theorem C106_second : forall n U q D made pid ms
  (strings : universe n U) (short : 162 <= n) (before : made_before D made) (different : NoDup ms)
  (targets : forall m, In m ms -> exists src rng, In (src, rng) made /\ In (pid, m) (ms_messages src))
  (enough : (N.of_nat (q + length ms) <= 2 ^ 256)%N),
  exists adversary : prog (merkle_proof * bytes32 * bytes32), modest n (q + length ms + (3 * 2 ^ D + 3)) adversary /\
  rare U (fun H => ~ let '(pf, pid, msg) := exec H adversary in
            valid_proof pf /\ exists src t c, committed H made src t c /\ ~ In (pid, msg) (ms_messages src) /\
              forall md, @convolve H md pf pid msg = Ret (Ok c))
       (2 ^ 256) (2 ^ 256 + N.of_nat (length ms) * N.of_nat q).
Proof. exact c106_second. Qed.
Print Assumptions C106_second.
Example C106_second_case : exists U, universe 162 U /\ made_before 2 made0 /\ NoDup [m2; m1] /\
  (forall m, In m [m2; m1] -> exists src rng, In (src, rng) made0 /\ In (p1, m) (ms_messages src)) /\
  (N.of_nat (2 + length [m2; m1]) <= 2 ^ 256)%N /\
  (let '(pf, pid, msg) := exec flat (p_other p1 [(m2, t0'); (m1, t0)] [p5]) in pid = p1 /\ msg = m1 /\ @convolve flat Debug pf pid msg = Ret (Ok cflat)) /\
  (let '(pf, pid, msg) := exec flat (p_other p1 [(m2, t0')] [p5]) in pid = p1 /\ msg = p5 /\ @convolve flat Debug pf pid msg = Ret (Ok cflat)).
Proof. exact c106_second_case. Qed.

Theorem C106_numbers : forall n U q pf pid
  (strings : universe n U) (short : 162 <= n) (work : (2 ^ 129 <= N.of_nat q <= 2 ^ 256)%N)
  (valid : valid_proof pf) (depth : length (mp_path pf) <= 31) (place : mp_pos pf = s_pos pid (mp_cofactor pf) (length (mp_path pf))),
  exists adversary : prog (merkle_proof * bytes32 * merkle_proof * bytes32 * bytes32), modest n (q + 1) adversary /\
  rare U (fun H => ~ let '(pf1, m1, pf2, m2, pid) := exec H adversary in
            valid_proof pf1 /\ valid_proof pf2 /\ m1 <> m2 /\
            exists c, forall md, @convolve H md pf1 pid m1 = Ret (Ok c) /\ @convolve H md pf2 pid m2 = Ret (Ok c))
       2 5.
Proof. exact c106_numbers. Qed.
Print Assumptions C106_numbers.
Example C106_numbers_case : exists U q, universe 162 U /\ (2 ^ 129 <= N.of_nat q <= 2 ^ 256)%N /\ valid_proof pf1 /\ length (mp_path pf1) <= 31 /\
  mp_pos pf1 = s_pos p1 (mp_cofactor pf1) (length (mp_path pf1)).
Proof. exact c106_numbers_case. Qed.
