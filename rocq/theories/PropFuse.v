(** Merging blocks with remainders: C124 *)
From Coq Require Import Permutation Sorting.Sorted.
From Verif Require Import Base BaseFacts OrdMap Strict Digest Merkle MpcAtoms MpcTree MpcBlock.
From Verif Require Import Engine EngineIo Schemes Seals Api Vesper Sha256 Ripemd Dumb Text Loops Orders Suites MpcTests Serde Steps Work Costs.
From Verif Require Import SpecHash SpecTree SpecMerkle SpecFull SpecValid SpecCommit SpecDerived SpecBlock.
From Verif Require Import SpecBuoy SpecStrings SpecCodec SpecLayout SpecEngine SpecMisc SpecSha SpecDerive SpecLocal SpecSession SpecRipemd SpecEnd Stl SpecStl SpecQuery SpecCount SpecText SpecOrders SpecFind SpecForm SpecGame SpecHideGame SpecViewGame SpecBlockGame SpecSuites SpecExtend SpecCompress SpecTests SpecSerde SpecTalk SpecMany SpecDepth SpecTarget SpecIdGame SpecLate SpecTransfer SpecNest SpecScript SpecSalt SpecOpen SpecChoice SpecPick SpecOffer SpecPlay SpecSeek SpecShare SpecSettled SpecResting SpecDraw SpecFuse SpecFeed.
From Verif Require Import TheoremsMpc TheoremsBlock TheoremsMerkle TheoremsMisc TheoremsMore TheoremsExt TheoremsAdv TheoremsLocal TheoremsSession TheoremsHash TheoremsHide TheoremsEnd TheoremsStl TheoremsQuery TheoremsCount TheoremsText TheoremsFrame TheoremsLoops TheoremsTight TheoremsOrders TheoremsFind TheoremsForm TheoremsGame TheoremsHideGame TheoremsViewGame TheoremsBlockGame TheoremsSuites TheoremsExtend TheoremsCompress TheoremsTests TheoremsSerde TheoremsTalk TheoremsMany TheoremsDepth TheoremsWork TheoremsTarget TheoremsAttack TheoremsIdGame TheoremsLate TheoremsTransfer TheoremsNest TheoremsCosts TheoremsScript TheoremsSalt TheoremsOpen TheoremsChoice TheoremsPick TheoremsOffer TheoremsPlay TheoremsSeek TheoremsShare TheoremsSettled TheoremsResting TheoremsDraw TheoremsFuse TheoremsFeed.
From Verif Require Import CasesMpc CasesMisc CasesMore CasesExt CasesAdv CasesLocal CasesSession CasesHash CasesHide CasesEnd CasesStl CasesQuery CasesCount CasesText CasesFrame CasesLoops CasesTight CasesOrders CasesFind CasesForm CasesGame CasesHideGame CasesViewGame CasesBlockGame CasesSuites CasesExtend CasesCompress CasesTests CasesSerde CasesTalk CasesMany CasesDepth CasesWork CasesTarget CasesAttack CasesIdGame CasesLate CasesTransfer CasesNest CasesCosts CasesScript CasesSalt CasesOpen CasesChoice CasesPick CasesOffer CasesPlay CasesSeek CasesShare CasesSettled CasesResting CasesDraw CasesFuse CasesFeed.
Local Open Scope nat_scope.

Theorem C124_exact : forall (H : Hasher) a b ta tb Fa Fb
  (valida : valid_block a) (validb : valid_block b)
  (sectiona : mb_cross_section a = flatten 0 ta ++ frontiers Fa) (leavesa : pwf_loose (mb_depth a) 0 ta)
  (remaindera : settled (mb_depth a) (2 ^ N.of_nat (mb_depth a)) 0 Fa)
  (sectionb : mb_cross_section b = flatten 0 tb ++ frontiers Fb) (leavesb : pwf_loose (mb_depth b) 0 tb)
  (remainderb : settled (mb_depth b) (2 ^ N.of_nat (mb_depth b)) 0 Fb)
  (one : Fa = [] \/ Fb = [])
  (ids : pcommit (mb_depth a) (mb_cofactor a) ta = pcommit (mb_depth b) (mb_cofactor b) tb),
  let tail := tl (frontiers Fa) ++ tl (frontiers Fb) in
  let xs := flatten 0 (pjoin ta tb) ++ tail in
  (fused (mb_depth a) (pjoin ta tb) tail /\
   merge_reveal Release a b = Ret (MBlock (mb_method a) (mb_depth a) (mb_cofactor a) xs (mb_entropy a), Ok (N.of_nat (length xs) mod 2 ^ 16)%N)) \/
  (~ fused (mb_depth a) (pjoin ta tb) tail /\ exists p, merge_reveal Release a b = Panic p) \/
  collision_in (pcommit_pre (mb_depth a) (mb_cofactor a) ta ++ pcommit_pre (mb_depth b) (mb_cofactor b) tb).
Proof. exact c124_exact. Qed.
Print Assumptions C124_exact.
Example C124_exact_case : valid_block b3 /\ valid_block b1d /\
  mb_cross_section b3 = flatten 0 pt3 ++ frontiers [] /\ pwf_loose (mb_depth b3) 0 pt3 /\
  mb_cross_section b1d = flatten 0 pt1 ++ frontiers [(9, PConc m1); (7, PConc m2)] /\ pwf_loose (mb_depth b1d) 0 pt1 /\
  settled (mb_depth b1d) (2 ^ N.of_nat (mb_depth b1d)) 0 [(9, PConc m1); (7, PConc m2)] /\
  @pcommit toy (mb_depth b3) (mb_cofactor b3) pt3 = @pcommit toy (mb_depth b1d) (mb_cofactor b1d) pt1 /\
  @merge_reveal toy Release b3 b1d = Ret (b3d, Ok 5%N) /\ mb_cross_section b1t = flatten 0 pt1 ++ frontiers tail1 /\
  exists p, @merge_reveal toy Release b3 b1t = Panic p.
Proof. exact c124_exact_case. Qed.

Theorem C124_narrow : forall (H : Hasher) a b c n (valida : valid_block a) (validb : valid_block b)
  (shallowa : shallow_nodes (mb_depth a) (mb_cross_section a)) (shallowb : shallow_nodes (mb_depth b) (mb_cross_section b))
  (narrow : (heights_sum (mb_depth a) (mb_cross_section a) + heights_sum (mb_depth b) (mb_cross_section b) <
             2 ^ 32 + 2 * 2 ^ N.of_nat (mb_depth a))%N)
  (merged : merge_reveal Release a b = Ret (c, Ok n)),
  exists ta tb ja jb, mb_cross_section a = flatten 0 ta ++ ja /\ pwf (mb_depth a) 0 ta /\
    mb_cross_section b = flatten 0 tb ++ jb /\ pwf (mb_depth b) 0 tb /\
    (block_tree c (pjoin ta tb) \/
     collision_in (pcommit_pre (mb_depth a) (mb_cofactor a) ta ++ pcommit_pre (mb_depth b) (mb_cofactor b) tb)).
Proof. exact c124_narrow. Qed.
Print Assumptions C124_narrow.
Example C124_narrow_case : valid_block b3j /\ valid_block b1j /\
  shallow_nodes (mb_depth b3j) (mb_cross_section b3j) /\ shallow_nodes (mb_depth b1j) (mb_cross_section b1j) /\
  (heights_sum (mb_depth b3j) (mb_cross_section b3j) + heights_sum (mb_depth b1j) (mb_cross_section b1j) <
   2 ^ 32 + 2 * 2 ^ N.of_nat (mb_depth b3j))%N /\
  @merge_reveal toy Release b3j b1j = Ret (b13n, Ok 4%N) /\ ~ wf_block b3j.
Proof. exact c124_narrow_case. Qed.

Theorem C124_honest : forall (H : Hasher) md src rng t b other b' n c
  (valid : valid_source src) (made : try_commit src rng = Ret (Ok t)) (tree_id : tree_commit_id md t = Ret c)
  (validb : valid_block b) (valido : valid_block other) (own_id : block_commit_id Release b = Ret c)
  (narrow : (heights_sum (mb_depth b) (mb_cross_section b) + heights_sum (mb_depth other) (mb_cross_section other) <
             2 ^ 32 + 2 * 2 ^ N.of_nat (mb_depth b))%N)
  (merged : merge_reveal Release b other = Ret (b', Ok n)),
  (forall p m, In (p, m) (known_leaves (mb_cross_section b')) -> In (p, m) (ms_messages src)) \/
  exists tb to jb jo, mb_cross_section b = flatten 0 tb ++ jb /\ mb_cross_section other = flatten 0 to ++ jo /\
    collision_in ((pcommit_pre (mb_depth b) (mb_cofactor b) tb ++ pcommit_pre (mb_depth other) (mb_cofactor other) to) ++ tree_pre t).
Proof. exact c124_honest. Qed.
Print Assumptions C124_honest.
Example C124_honest_case : valid_source src0 /\ try_commit src0 None = Ret (Ok t0) /\ @tree_commit_id toy Release t0 = Ret c0 /\
  valid_block b3j /\ valid_block b1d /\ @block_commit_id toy Release b3j = Ret c0 /\
  (heights_sum (mb_depth b3j) (mb_cross_section b3j) + heights_sum (mb_depth b1d) (mb_cross_section b1d) <
   2 ^ 32 + 2 * 2 ^ N.of_nat (mb_depth b3j))%N /\
  @merge_reveal toy Release b3j b1d = Ret (b3x, Ok 6%N) /\ known_leaves (mb_cross_section b3x) = [(p1, m1); (p3, m1)].
Proof. exact c124_honest_case. Qed.

Theorem C124_wide_refuted : exists a b c n, valid_block a /\ wf_block a /\ valid_block b /\
  shallow_nodes (mb_depth b) (mb_cross_section b) /\
  (heights_sum (mb_depth a) (mb_cross_section a) + heights_sum (mb_depth b) (mb_cross_section b) =
   2 ^ 32 + 2 * 2 ^ N.of_nat (mb_depth a) + 1)%N /\
  (forall (H : Hasher), merge_reveal Release a b = Ret (c, Ok n)) /\ ~ wf_block c.
Proof. exact c124_wide_refuted. Qed.
Print Assumptions C124_wide_refuted.

Theorem C124_deep_refuted : forall (H : Hasher) p m, exists a b c n,
  valid_block a /\ wf_block a /\ valid_block b /\ length (mb_cross_section b) = 5 /\
  merge_reveal Release a b = Ret (c, Ok n) /\
  known_leaves (mb_cross_section a) = [] /\ known_leaves (mb_cross_section c) = [(p, m)] /\ ~ wf_block c.
Proof. exact c124_deep_refuted. Qed.
Print Assumptions C124_deep_refuted.
