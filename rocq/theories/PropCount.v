(** Numbers of sequences of protocol ids: C86 *)
From Coq Require Import Permutation Sorting.Sorted.
From Verif Require Import Base BaseFacts OrdMap Strict Digest Merkle MpcAtoms MpcTree MpcBlock.
From Verif Require Import Engine EngineIo Schemes Seals Api Vesper Sha256 Ripemd Dumb Text Loops Orders Suites MpcTests Serde Steps Work Costs.
From Verif Require Import SpecHash SpecTree SpecMerkle SpecFull SpecValid SpecCommit SpecDerived SpecBlock.
From Verif Require Import SpecBuoy SpecStrings SpecCodec SpecLayout SpecEngine SpecMisc SpecSha SpecDerive SpecLocal SpecSession SpecRipemd SpecEnd Stl SpecStl SpecQuery SpecCount SpecText SpecOrders SpecFind SpecForm SpecGame SpecHideGame SpecViewGame SpecBlockGame SpecSuites SpecExtend SpecCompress SpecTests SpecSerde SpecTalk SpecMany SpecDepth SpecTarget SpecIdGame SpecLate SpecTransfer SpecNest SpecScript SpecSalt SpecOpen SpecChoice SpecPick SpecOffer SpecPlay SpecSeek SpecShare SpecSettled SpecResting SpecDraw SpecFuse SpecFeed.
From Verif Require Import TheoremsMpc TheoremsBlock TheoremsMerkle TheoremsMisc TheoremsMore TheoremsExt TheoremsAdv TheoremsLocal TheoremsSession TheoremsHash TheoremsHide TheoremsEnd TheoremsStl TheoremsQuery TheoremsCount TheoremsText TheoremsFrame TheoremsLoops TheoremsTight TheoremsOrders TheoremsFind TheoremsForm TheoremsGame TheoremsHideGame TheoremsViewGame TheoremsBlockGame TheoremsSuites TheoremsExtend TheoremsCompress TheoremsTests TheoremsSerde TheoremsTalk TheoremsMany TheoremsDepth TheoremsWork TheoremsTarget TheoremsAttack TheoremsIdGame TheoremsLate TheoremsTransfer TheoremsNest TheoremsCosts TheoremsScript TheoremsSalt TheoremsOpen TheoremsChoice TheoremsPick TheoremsOffer TheoremsPlay TheoremsSeek TheoremsShare TheoremsSettled TheoremsResting TheoremsDraw TheoremsFuse TheoremsFeed.
From Verif Require Import CasesMpc CasesMisc CasesMore CasesExt CasesAdv CasesLocal CasesSession CasesHash CasesHide CasesEnd CasesStl CasesQuery CasesCount CasesText CasesFrame CasesLoops CasesTight CasesOrders CasesFind CasesForm CasesGame CasesHideGame CasesViewGame CasesBlockGame CasesSuites CasesExtend CasesCompress CasesTests CasesSerde CasesTalk CasesMany CasesDepth CasesWork CasesTarget CasesAttack CasesIdGame CasesLate CasesTransfer CasesNest CasesCosts CasesScript CasesSalt CasesOpen CasesChoice CasesPick CasesOffer CasesPlay CasesSeek CasesShare CasesSettled CasesResting CasesDraw CasesFuse CasesFeed.
Local Open Scope nat_scope.

Theorem C86_all : forall n, exists L, lists_all L (fun l => length l = n) /\ N.of_nat (length L) = (2 ^ (256 * N.of_nat n))%N.
Proof. exact c86_all. Qed.
Print Assumptions C86_all.
Example C86_all_case : length [p1; p2; p3] = 3.
Proof. exact c86_all_case. Qed.

Theorem C86_exact : forall D n (deep : D <= 31),
  exists L, lists_all L (fun l => length l = n /\ spread D l) /\ N.of_nat (length L) = choices D n.
Proof. exact c86_exact. Qed.
Print Assumptions C86_exact.
Example C86_exact_case : spread 2 [p1; p2; p3] /\ ~ spread 2 [p1; p5] /\ choices 2 2 = (2 ^ 256 * (3 * 2 ^ 254))%N /\
  choices 2 4 <> 0%N /\ choices 2 5 = 0%N.
Proof. exact c86_exact_case. Qed.

Theorem C86_few_fail : forall D n (deep : D <= 31),
  exists L, lists_all L (fun l => length l = n /\ ~ spread D l) /\
    (N.of_nat (length L) * 2 ^ N.of_nat (S D) <= N.of_nat n * N.of_nat (n - 1) * 2 ^ (256 * N.of_nat n))%N.
Proof. exact c86_few_fail. Qed.
Print Assumptions C86_few_fail.
Example C86_few_fail_case : length [p1; p5] = 2 /\ ~ spread 2 [p1; p5].
Proof. exact c86_few_fail_case. Qed.

Theorem C86_depth : forall src rng D (valid : valid_source src) (entropy : ms_static_entropy src <> None \/ rng <> None)
  (some : ms_min_depth src <> 0 \/ ms_messages src <> []) (from : ms_min_depth src <= D) (deep : D <= 31)
  (apart : spread D (map fst (ms_messages src))),
  exists t, try_commit src rng = Ret (Ok t) /\ mt_depth t <= D.
Proof. exact c86_depth. Qed.
Print Assumptions C86_depth.
Example C86_depth_case : valid_source src0 /\ spread 2 (map fst (ms_messages src0)) /\ ms_min_depth src0 <= 2 /\
  exists t, try_commit src0 None = Ret (Ok t) /\ mt_depth t = 2.
Proof. exact c86_depth_case. Qed.

Theorem C86_small : forall D n (deep : D <= 31),
  exists L, (N.of_nat (length L) * 2 ^ N.of_nat (S D) <= N.of_nat n * N.of_nat (n - 1) * 2 ^ (256 * N.of_nat n))%N /\
    forall l src rng, length l = n -> ~ In l L -> valid_source src -> Permutation (map fst (ms_messages src)) l ->
      ms_min_depth src <= D -> (ms_min_depth src <> 0 \/ n <> 0) -> (ms_static_entropy src <> None \/ rng <> None) ->
      exists t, try_commit src rng = Ret (Ok t) /\ mt_depth t <= D.
Proof. exact c86_small. Qed.
Print Assumptions C86_small.
Example C86_small_case : valid_source src31 /\ try_commit src31 None = Ret (Err (CantFitInMaxSlots 2)) /\
  ~ spread 31 (map fst (ms_messages src31)) /\ Permutation (map fst (ms_messages src0)) [p3; p1; p2].
Proof. exact c86_small_case. Qed.

Theorem C86_capacity : forall n d e rng (count : (N.of_nat n < 2 ^ 24)%N) (depth : d <= 24) (some : d <> 0 \/ n <> 0)
  (entropy : (e < 2 ^ 64)%N),
  exists src t, valid_source src /\ length (ms_messages src) = n /\ ms_min_depth src = d /\
    ms_static_entropy src = Some e /\ try_commit src rng = Ret (Ok t) /\ mt_depth t <= 24.
Proof. exact c86_capacity. Qed.
Print Assumptions C86_capacity.
Example C86_capacity_case : (N.of_nat 3 < 2 ^ 24)%N /\ length (ms_messages src0) = 3 /\ ms_min_depth src0 = 2.
Proof. exact c86_capacity_case. Qed.
