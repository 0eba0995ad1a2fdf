(** Depth and attempts forced by chosen protocols: C103 *)
From Coq Require Import Permutation Sorting.Sorted.
From Verif Require Import Base BaseFacts OrdMap Strict Digest Merkle MpcAtoms MpcTree MpcBlock.
From Verif Require Import Engine EngineIo Schemes Seals Api Vesper Sha256 Ripemd Dumb Text Loops Orders Suites MpcTests Serde Steps Work Costs.
From Verif Require Import SpecHash SpecTree SpecMerkle SpecFull SpecValid SpecCommit SpecDerived SpecBlock.
From Verif Require Import SpecBuoy SpecStrings SpecCodec SpecLayout SpecEngine SpecMisc SpecSha SpecDerive SpecLocal SpecSession SpecRipemd SpecEnd Stl SpecStl SpecQuery SpecCount SpecText SpecOrders SpecFind SpecForm SpecGame SpecHideGame SpecViewGame SpecBlockGame SpecSuites SpecExtend SpecCompress SpecTests SpecSerde SpecTalk SpecMany SpecDepth SpecTarget SpecIdGame SpecLate SpecTransfer SpecNest SpecScript SpecSalt SpecOpen SpecChoice SpecPick SpecOffer SpecPlay SpecSeek SpecShare SpecSettled SpecResting SpecDraw SpecFuse SpecFeed.
From Verif Require Import TheoremsMpc TheoremsBlock TheoremsMerkle TheoremsMisc TheoremsMore TheoremsExt TheoremsAdv TheoremsLocal TheoremsSession TheoremsHash TheoremsHide TheoremsEnd TheoremsStl TheoremsQuery TheoremsCount TheoremsText TheoremsFrame TheoremsLoops TheoremsTight TheoremsOrders TheoremsFind TheoremsForm TheoremsGame TheoremsHideGame TheoremsViewGame TheoremsBlockGame TheoremsSuites TheoremsExtend TheoremsCompress TheoremsTests TheoremsSerde TheoremsTalk TheoremsMany TheoremsDepth TheoremsWork TheoremsTarget TheoremsAttack TheoremsIdGame TheoremsLate TheoremsTransfer TheoremsNest TheoremsCosts TheoremsScript TheoremsSalt TheoremsOpen TheoremsChoice TheoremsPick TheoremsOffer TheoremsPlay TheoremsSeek TheoremsShare TheoremsSettled TheoremsResting TheoremsDraw TheoremsFuse TheoremsFeed.
From Verif Require Import CasesMpc CasesMisc CasesMore CasesExt CasesAdv CasesLocal CasesSession CasesHash CasesHide CasesEnd CasesStl CasesQuery CasesCount CasesText CasesFrame CasesLoops CasesTight CasesOrders CasesFind CasesForm CasesGame CasesHideGame CasesViewGame CasesBlockGame CasesSuites CasesExtend CasesCompress CasesTests CasesSerde CasesTalk CasesMany CasesDepth CasesWork CasesTarget CasesAttack CasesIdGame CasesLate CasesTransfer CasesNest CasesCosts CasesScript CasesSalt CasesOpen CasesChoice CasesPick CasesOffer CasesPlay CasesSeek CasesShare CasesSettled CasesResting CasesDraw CasesFuse CasesFeed.
Local Open Scope nat_scope.

Theorem C103_criterion : forall src rng D
  (valid : valid_source src) (several : 2 <= length (ms_messages src)) (bound : D <= 31)
  (entropy : ms_static_entropy src <> None \/ rng <> None)
  (widths : enough (ms_min_depth src) (length (ms_messages src)) D),
  exists t, try_commit src rng = Ret (Ok t) /\ mt_depth t <= D.
Proof. exact c103_criterion. Qed.
Print Assumptions C103_criterion.
Example C103_criterion_case : valid_source (zero_and 3 lcm128) /\ length (ms_messages (zero_and 3 lcm128)) = 2 /\ enough 3 2 8 /\
  exists t, try_commit (zero_and 3 lcm128) None = Ret (Ok t) /\ mt_depth t = 8.
Proof. exact c103_criterion_case. Qed.

Theorem C103_depth : forall src rng
  (valid : valid_source src) (several : 2 <= length (ms_messages src) <= 10) (shallow : ms_min_depth src <= 7)
  (entropy : ms_static_entropy src <> None \/ rng <> None),
  exists t, try_commit src rng = Ret (Ok t) /\ mt_depth t <= depth_limit (length (ms_messages src)).
Proof. exact c103_depth. Qed.
Print Assumptions C103_depth.
Example C103_depth_case : valid_source three /\ length (ms_messages three) = 3 /\ depth_limit 3 = 10 /\
  exists t, try_commit three None = Ret (Ok t) /\ mt_depth t = 8.
Proof. exact c103_depth_case. Qed.

Theorem C103_two : forall src rng
  (valid : valid_source src) (two : length (ms_messages src) = 2) (room : ms_min_depth src <= 30)
  (entropy : ms_static_entropy src <> None \/ rng <> None),
  exists t, try_commit src rng = Ret (Ok t) /\ mt_depth t <= Nat.max 8 (S (ms_min_depth src)).
Proof. exact c103_two. Qed.
Print Assumptions C103_two.
Example C103_two_case : valid_source (zero_and 12 (4096 * 4095)) /\
  exists t, try_commit (zero_and 12 (4096 * 4095)) None = Ret (Ok t) /\ mt_depth t = 13.
Proof. exact c103_two_case. Qed.

Theorem C103_reached : forall min_depth (room : min_depth <= 30), exists src t,
  valid_source src /\ length (ms_messages src) = 2 /\ ms_min_depth src = min_depth /\
  try_commit src None = Ret (Ok t) /\ mt_depth t = Nat.max 8 (S min_depth).
Proof. exact c103_reached. Qed.
Print Assumptions C103_reached.
Example C103_reached_case : exists t, try_commit (stubborn_source 3) None = Ret (Ok t) /\ mt_depth t = 8 /\ mt_cofactor t = 0%N.
Proof. exact c103_reached_case. Qed.

Theorem C103_blocked : exists ids : list bytes32, NoDup ids /\ length ids = 280 /\
  forall src rng (valid : valid_source src) (contained : incl ids (map fst (ms_messages src)))
    (entropy : ms_static_entropy src <> None \/ rng <> None),
  try_commit src rng = Ret (Err (CantFitInMaxSlots (length (ms_messages src)))).
Proof. exact c103_blocked. Qed.
Print Assumptions C103_blocked.
Example C103_blocked_case : valid_source blocked /\ incl blocking_ids (map fst (ms_messages blocked)) /\
  length (ms_messages blocked) = 280 /\ exists positions,
  counted_commit blocked None = Ret (Err (CantFitInMaxSlots 280), 11279%N, positions).
Proof. exact c103_blocked_case. Qed.

Theorem C103_attempts : forall src rng r
  (valid : valid_source src) (result : try_commit src rng = Ret r),
  let m := ms_min_depth src in
  let n := length (ms_messages src) in
  exists attempts positions, counted_commit src rng = Ret (r, attempts, positions) /\
    (attempts <= 11544)%N /\ (positions <= attempts * N.of_nat n)%N /\ (n <> 0 -> (attempts <= positions)%N) /\
    match r with
    | Ok t => attempts = (attempts_below m n (mt_depth t) + mt_cofactor t + 1)%N
    | Err (CantFitInMaxSlots _) => attempts = attempts_below m n 32
    | Err _ => attempts = 0%N
    end.
Proof. exact c103_attempts. Qed.
Print Assumptions C103_attempts.
Example C103_attempts_case : exists t, counted_commit (zero_and 3 lcm128) None = Ret (Ok t, 127%N, 254%N) /\ mt_depth t = 8.
Proof. exact c103_attempts_case. Qed.
