(** Cross-sections, decoded values, availability, passes, profiles: C51-C58 *)
From Coq Require Import Permutation Sorting.Sorted.
From Verif Require Import Base BaseFacts OrdMap Strict Digest Merkle MpcAtoms MpcTree MpcBlock.
From Verif Require Import Engine EngineIo Schemes Seals Api Vesper Sha256 Ripemd Dumb Text Loops Orders Suites MpcTests Serde Steps Work Costs.
From Verif Require Import SpecHash SpecTree SpecMerkle SpecFull SpecValid SpecCommit SpecDerived SpecBlock.
From Verif Require Import SpecBuoy SpecStrings SpecCodec SpecLayout SpecEngine SpecMisc SpecSha SpecDerive SpecLocal SpecSession SpecRipemd SpecEnd Stl SpecStl SpecQuery SpecCount SpecText SpecOrders SpecFind SpecForm SpecGame SpecHideGame SpecViewGame SpecBlockGame SpecSuites SpecExtend SpecCompress SpecTests SpecSerde SpecTalk SpecMany SpecDepth SpecTarget SpecIdGame SpecLate SpecTransfer SpecNest SpecScript SpecSalt SpecOpen SpecChoice SpecPick SpecOffer SpecPlay SpecSeek SpecShare SpecSettled SpecResting SpecDraw SpecFuse SpecFeed.
From Verif Require Import TheoremsMpc TheoremsBlock TheoremsMerkle TheoremsMisc TheoremsMore TheoremsExt TheoremsAdv TheoremsLocal TheoremsSession TheoremsHash TheoremsHide TheoremsEnd TheoremsStl TheoremsQuery TheoremsCount TheoremsText TheoremsFrame TheoremsLoops TheoremsTight TheoremsOrders TheoremsFind TheoremsForm TheoremsGame TheoremsHideGame TheoremsViewGame TheoremsBlockGame TheoremsSuites TheoremsExtend TheoremsCompress TheoremsTests TheoremsSerde TheoremsTalk TheoremsMany TheoremsDepth TheoremsWork TheoremsTarget TheoremsAttack TheoremsIdGame TheoremsLate TheoremsTransfer TheoremsNest TheoremsCosts TheoremsScript TheoremsSalt TheoremsOpen TheoremsChoice TheoremsPick TheoremsOffer TheoremsPlay TheoremsSeek TheoremsShare TheoremsSettled TheoremsResting TheoremsDraw TheoremsFuse TheoremsFeed.
From Verif Require Import CasesMpc CasesMisc CasesMore CasesExt CasesAdv CasesLocal CasesSession CasesHash CasesHide CasesEnd CasesStl CasesQuery CasesCount CasesText CasesFrame CasesLoops CasesTight CasesOrders CasesFind CasesForm CasesGame CasesHideGame CasesViewGame CasesBlockGame CasesSuites CasesExtend CasesCompress CasesTests CasesSerde CasesTalk CasesMany CasesDepth CasesWork CasesTarget CasesAttack CasesIdGame CasesLate CasesTransfer CasesNest CasesCosts CasesScript CasesSalt CasesOpen CasesChoice CasesPick CasesOffer CasesPlay CasesSeek CasesShare CasesSettled CasesResting CasesDraw CasesFuse CasesFeed.
Local Open Scope nat_scope.

Theorem C51_prefix : forall (H : Hasher) md b c
  (valid : valid_block b) (id : block_commit_id md b = Ret c),
  exists t rest, mb_cross_section b = flatten 0 t ++ rest /\ pwf_loose (mb_depth b) 0 t /\
    c = pcommit (mb_depth b) (mb_cofactor b) t /\ (md = Debug -> rest = []) /\
    forall t' rest', mb_cross_section b = flatten 0 t' ++ rest' -> pwf_loose (mb_depth b) 0 t' -> t' = t /\ rest' = rest.
Proof. exact c51_prefix. Qed.
Print Assumptions C51_prefix.
Example C51_prefix_case : valid_block b1 /\ @block_commit_id toy Debug b1 = Ret c0 /\
  valid_block b1g /\ @block_commit_id toy Release b1g = Ret c0 /\
  mb_cross_section b1g = flatten 0 pt1 ++ [CommitmentLeaf p5 m2].
Proof. exact c51_prefix_case. Qed.

Theorem C51_vouches : forall (H : Hasher) md md' b src rng t c
  (validb : valid_block b) (valid : valid_source src) (made : try_commit src rng = Ret (Ok t))
  (block_id : block_commit_id md b = Ret c) (tree_id : tree_commit_id md' t = Ret c),
  exists pt rest, mb_cross_section b = flatten 0 pt ++ rest /\ pwf_loose (mb_depth b) 0 pt /\
    ((mb_depth b = mt_depth t /\ mb_cofactor b = mt_cofactor t /\
      forall q p m, In (q, (p, m)) (pleaves_at (mb_depth b) 0 0 pt) ->
        In (p, m) (ms_messages src) /\ q = s_pos p (mt_cofactor t) (mt_depth t)) \/
     collision_in (pcommit_pre (mb_depth b) (mb_cofactor b) pt ++ tree_pre t)).
Proof. exact c51_vouches. Qed.
Print Assumptions C51_vouches.
Example C51_vouches_case : valid_block b1g /\ valid_source src0 /\ try_commit src0 None = Ret (Ok t0) /\
  @block_commit_id toy Release b1g = Ret c0 /\ @tree_commit_id toy Debug t0 = Ret c0 /\
  pleaves_at 2 0 0 pt1 = [(1%N, (p1, m1))] /\ ~ In p5 (map fst (ms_messages src0)).
Proof. exact c51_vouches_case. Qed.

Theorem C52_once : forall (H : Hasher) md b t p m q
  (wf : block_tree b t) (leaf : In (q, (p, m)) (pleaves_at (mb_depth b) 0 0 t))
  (once : count_occ b32_eq_dec (known_protocol_ids b) p = 1),
  exists pf, to_merkle_proof md b p = Ret (Ok pf) /\ valid_proof pf /\
    length (mp_path pf) = mb_depth b /\ mp_pos pf = s_pos p (mb_cofactor b) (mb_depth b) /\
    mp_cofactor pf = mb_cofactor b /\ mp_method pf = mb_method b /\
    (q = s_pos p (mb_cofactor b) (mb_depth b) ->
       exists c, block_commit_id md b = Ret c /\ convolve md pf p m = Ret (Ok c)).
Proof. exact c52_once. Qed.
Print Assumptions C52_once.
Example C52_once_case : block_tree b0 pt0 /\ In (1%N, (p1, m1)) (pleaves_at (mb_depth b0) 0 0 pt0) /\
  count_occ b32_eq_dec (known_protocol_ids b0) p1 = 1 /\ s_pos p1 (mb_cofactor b0) (mb_depth b0) = 1%N /\
  @to_merkle_proof toy Debug b0 p1 = Ret (Ok pf1).
Proof. exact c52_once_case. Qed.

Theorem C52_several : forall (H : Hasher) b t p
  (wf : block_tree b t) (several : 2 <= count_occ b32_eq_dec (known_protocol_ids b) p),
  (exists x, to_merkle_proof Debug b p = Panic x) /\
  exists pf, to_merkle_proof Release b p = Ret (Ok pf) /\ length (mp_path pf) < mb_depth b /\
    forall md msg c, block_commit_id md b = Ret c -> convolve md pf p msg = Ret (Ok c) ->
      collision_in (proof_pre pf p msg ++ pcommit_pre (mb_depth b) (mb_cofactor b) t).
Proof. exact c52_several. Qed.
Print Assumptions C52_several.
Example C52_several_case : block_tree bdup (PBr (PLeaf p1 m1) (PLeaf p1 m2)) /\
  count_occ b32_eq_dec (known_protocol_ids bdup) p1 = 2 /\
  @to_merkle_proof toy Release bdup p1 = Ret (Ok (MProof Sha256t 1 0 [])).
Proof. exact c52_several_case. Qed.

Theorem C52_misplaced_refuted : forall (H : Hasher) md, exists b t p m pf c c',
  block_tree b t /\ known_leaves (mb_cross_section b) = [(p, m)] /\
  to_merkle_proof md b p = Ret (Ok pf) /\ block_commit_id md b = Ret c /\ convolve md pf p m = Ret (Ok c') /\
  (c = c' -> collision_in (pcommit_pre (mb_depth b) (mb_cofactor b) t ++ proof_pre pf p m)).
Proof. exact c52_misplaced_refuted. Qed.
Print Assumptions C52_misplaced_refuted.

Theorem C53_commit : forall (H : Hasher) md t (valid : valid_tree t),
  exists c, tree_commit_id md t = Ret c /\ block_commit_id md (block_of_tree t) = Ret c /\
    c = pcommit (mt_depth t) (mt_cofactor t) (tree_full t) /\
    exists root, mt_root t = Ret root /\ tree_conceal md t = Ret (MConcealed (mt_depth t) (mt_cofactor t) root).
Proof. exact c53_commit. Qed.
Print Assumptions C53_commit.
Example C53_commit_case : valid_tree t0 /\ @tree_commit_id toy Debug t0 = Ret c0.
Proof. exact c53_commit_case. Qed.

Theorem C53_determined : forall (H : Hasher) md t1 t2 (valid1 : valid_tree t1) (valid2 : valid_tree t2)
  (depth : mt_depth t1 = mt_depth t2) (cofactor : mt_cofactor t1 = mt_cofactor t2) (entropy : mt_entropy t1 = mt_entropy t2)
  (slots : forall pos, (pos < 2 ^ N.of_nat (mt_depth t1))%N -> om_get N.ltb pos (mt_map t1) = om_get N.ltb pos (mt_map t2)),
  tree_commit_id md t1 = tree_commit_id md t2.
Proof. exact c53_determined. Qed.
Print Assumptions C53_determined.
Example C53_determined_case : valid_tree t0 /\ valid_tree t0x /\ mt_map t0 <> mt_map t0x /\
  (forall pos, (pos < 2 ^ N.of_nat (mt_depth t0))%N -> om_get N.ltb pos (mt_map t0) = om_get N.ltb pos (mt_map t0x)) /\
  @tree_commit_id toy Release t0x = Ret c0.
Proof. exact c53_determined_case. Qed.

Theorem C53_binding : forall (H : Hasher) md t1 t2 c (valid1 : valid_tree t1) (valid2 : valid_tree t2)
  (id1 : tree_commit_id md t1 = Ret c) (id2 : tree_commit_id md t2 = Ret c),
  (mt_depth t1 = mt_depth t2 /\ mt_cofactor t1 = mt_cofactor t2 /\
   forall pos, (pos < 2 ^ N.of_nat (mt_depth t1))%N ->
     om_get N.ltb pos (mt_map t1) = om_get N.ltb pos (mt_map t2) /\
     (om_get N.ltb pos (mt_map t1) = None -> mt_entropy t1 = mt_entropy t2)) \/
  collision_in (tree_pre t1 ++ tree_pre t2).
Proof. exact c53_binding. Qed.
Print Assumptions C53_binding.
Example C53_binding_case : valid_tree t0 /\ valid_tree t0' /\
  @tree_commit_id flat Debug t0 = Ret cflat /\ @tree_commit_id flat Debug t0' = Ret cflat /\
  om_get N.ltb 1%N (mt_map t0) <> om_get N.ltb 1%N (mt_map t0') /\ @tree_commit_id toy Debug t0 <> @tree_commit_id toy Debug t0'.
Proof. exact c53_binding_case. Qed.

Theorem C53_messages_refuted : exists t1 t2, valid_tree t1 /\ valid_tree t2 /\ mt_messages t1 <> mt_messages t2 /\
  forall (H : Hasher) md, tree_commit_id md t1 = tree_commit_id md t2.
Proof. exact c53_messages_refuted. Qed.
Print Assumptions C53_messages_refuted.

Theorem C54_defaults : forall (H : Hasher) md e rng r,
  let t e := MTree Sha256t 3 e 0 [] [] in
  try_commit (multi_source_with_static_entropy e) rng = Ret (Ok (t e)) /\
  try_commit multi_source_default (Some r) = Ret (Ok (t r)) /\
  (exists x, try_commit multi_source_default None = Panic x) /\
  into_proofs md (t e) = Ret [].
Proof. exact c54_defaults. Qed.
Print Assumptions C54_defaults.

Theorem C54_entropy : forall (H : Hasher) md e1 e2 rng1 rng2 t1 t2 c
  (u64_1 : (e1 < 2 ^ 64)%N) (u64_2 : (e2 < 2 ^ 64)%N)
  (made1 : try_commit (multi_source_with_static_entropy e1) rng1 = Ret (Ok t1))
  (made2 : try_commit (multi_source_with_static_entropy e2) rng2 = Ret (Ok t2))
  (id1 : tree_commit_id md t1 = Ret c) (id2 : tree_commit_id md t2 = Ret c),
  e1 = e2 \/ collision_in (tree_pre t1 ++ tree_pre t2).
Proof. exact c54_entropy. Qed.
Print Assumptions C54_entropy.
Example C54_entropy_case : let t e := MTree Sha256t 3 e 0 [] [] in
  try_commit (multi_source_with_static_entropy 5) None = Ret (Ok (t 5%N)) /\
  try_commit (multi_source_with_static_entropy 6) (Some 5%N) = Ret (Ok (t 6%N)) /\
  @tree_commit_id flat Debug (t 5%N) = Ret cflat /\ @tree_commit_id flat Debug (t 6%N) = Ret cflat /\
  @tree_commit_id toy Debug (t 5%N) <> @tree_commit_id toy Debug (t 6%N).
Proof. exact c54_entropy_case. Qed.

Theorem C54_shape : forall method min_depth msgs s1 s2 rng1 rng2 t1 t2
  (valid1 : valid_source (MultiSource method min_depth msgs s1)) (valid2 : valid_source (MultiSource method min_depth msgs s2))
  (made1 : try_commit (MultiSource method min_depth msgs s1) rng1 = Ret (Ok t1))
  (made2 : try_commit (MultiSource method min_depth msgs s2) rng2 = Ret (Ok t2)),
  mt_depth t1 = mt_depth t2 /\ mt_cofactor t1 = mt_cofactor t2 /\ mt_messages t1 = mt_messages t2 /\ mt_map t1 = mt_map t2 /\
  mt_method t1 = mt_method t2.
Proof. exact c54_shape. Qed.
Print Assumptions C54_shape.
Example C54_shape_case : valid_source src0 /\ try_commit src0 None = Ret (Ok t0) /\
  valid_source srcr /\ try_commit srcr (Some 9%N) = Ret (Ok (MTree Sha256t 2 9 0 (mt_messages t0) (mt_map t0))).
Proof. exact c54_shape_case. Qed.

Theorem C55_few : forall src rng
  (valid : valid_source src) (few : length (ms_messages src) <= 10) (room : ms_min_depth src <= 30)
  (some : ms_min_depth src <> 0 \/ ms_messages src <> []) (entropy : ms_static_entropy src <> None \/ rng <> None),
  exists t, try_commit src rng = Ret (Ok t) /\ mt_depth t <= 31 /\ (mt_cofactor t <= 500)%N.
Proof. exact c55_few. Qed.
Print Assumptions C55_few.
Example C55_few_case : valid_source src10 /\ length (ms_messages src10) = 10 /\ ms_messages src10 <> [] /\
  exists t, try_commit src10 (Some 7%N) = Ret (Ok t) /\ mt_depth t = 4 /\ mt_cofactor t = 0%N.
Proof. exact c55_few_case. Qed.

Theorem C55_single : forall src rng
  (valid : valid_source src) (single : length (ms_messages src) <= 1)
  (some : ms_min_depth src <> 0 \/ ms_messages src <> []) (entropy : ms_static_entropy src <> None \/ rng <> None),
  exists t, try_commit src rng = Ret (Ok t) /\ mt_depth t = ms_min_depth src /\ mt_cofactor t = 0%N.
Proof. exact c55_single. Qed.
Print Assumptions C55_single.
Example C55_single_case : let src := MultiSource Sha256t 31 [(p1, m1)] (Some 7%N) in
  valid_source src /\ try_commit src None = Ret (Ok (MTree Sha256t 31 7 0 [(p1, m1)] [(16843009%N, (p1, m1))])).
Proof. exact c55_single_case. Qed.

Theorem C55_min31_refuted : exists src, valid_source src /\ length (ms_messages src) = 2 /\ ms_min_depth src = 31 /\
  forall rng, try_commit src rng = Ret (Err (CantFitInMaxSlots 2)).
Proof. exact c55_min31_refuted. Qed.
Print Assumptions C55_min31_refuted.

Theorem C55_crafted_refuted : exists src n, valid_source src /\ ms_min_depth src = 3 /\
  length (ms_messages src) = n /\ n <= 1100 /\ forall rng, try_commit src rng = Ret (Err (CantFitInMaxSlots n)).
Proof. exact c55_crafted_refuted. Qed.
Print Assumptions C55_crafted_refuted.

Theorem C56_passes : forall (H : Hasher) md b t n fuel
  (wf : block_tree b t) (enough : mb_depth b < fuel),
  conceal_loop fuel md (mb_depth b) (mb_cross_section b) n =
  conceal_loop (S (length (mb_cross_section b))) md (mb_depth b) (mb_cross_section b) n.
Proof. exact c56_passes. Qed.
Print Assumptions C56_passes.
Example C56_passes_case : block_tree b1 pt1 /\ mb_depth b1 = 2 /\
  exists xs, @conceal_loop toy 3 Debug 2 (mb_cross_section b1) 0 = Ret (xs, 0%N).
Proof. exact c56_passes_case. Qed.

Theorem C56_conceal : forall (H : Hasher) md b ids
  (wf : wf_block b) (revealed : forall p, In p ids -> In p (known_protocol_ids b)),
  exists xs n, conceal_leaves (mb_depth b) ids (mb_cross_section b) (os_of_list b32_ltb ids) 0 = (xs, [], n) /\
    conceal_except md b ids =
      (' (xs', n') <- conceal_loop (S (mb_depth b)) md (mb_depth b) xs n ;;
       Ret (MBlock (mb_method b) (mb_depth b) (mb_cofactor b) xs' None, Ok n')).
Proof. exact c56_conceal. Qed.
Print Assumptions C56_conceal.
Example C56_conceal_case : wf_block b0 /\ (forall p, In p [p1] -> In p (known_protocol_ids b0)) /\
  @conceal_except toy Debug b0 [p1] = Ret (b1, Ok 3%N).
Proof. exact c56_conceal_case. Qed.

Theorem C56_sharp : forall (H : Hasher) md D n (deep : D <= 31),
  exists b, wf_block b /\ mb_depth b = D /\ length (mb_cross_section b) = S D /\
    conceal_loop D md D (mb_cross_section b) n = Panic PFuel.
Proof. exact c56_sharp. Qed.
Print Assumptions C56_sharp.
Example C56_sharp_case : exists b, wf_block b /\ mb_depth b = 2 /\
  @conceal_loop toy 2 Debug 2 (mb_cross_section b) 0 = Panic PFuel /\
  exists xs n, @conceal_loop toy 3 Debug 2 (mb_cross_section b) 0 = Ret (xs, n).
Proof. exact c56_sharp_case. Qed.

Theorem C57_blocks : forall (H : Hasher) b b2 ids p m pf,
  (forall x, conceal_except Debug b ids = Ret x -> conceal_except Release b ids = Ret x) /\
  (forall x, conceal_other Debug b p = Ret x -> conceal_other Release b p = Ret x) /\
  (forall x, block_conceal Debug b = Ret x -> block_conceal Release b = Ret x) /\
  (forall x, block_commit_id Debug b = Ret x -> block_commit_id Release b = Ret x) /\
  (forall x, merge_reveal Debug b b2 = Ret x -> merge_reveal Release b b2 = Ret x) /\
  (forall x, merge_reveal_path Debug b pf p m = Ret x -> merge_reveal_path Release b pf p m = Ret x) /\
  (forall x, to_merkle_proof Debug b p = Ret x -> to_merkle_proof Release b p = Ret x) /\
  (forall x, into_known_proofs Debug b = Ret x -> into_known_proofs Release b = Ret x) /\
  (forall x, mb_factored_width Debug b = Ret x -> mb_factored_width Release b = Ret x) /\
  (forall x, mb_matches Debug b b2 = Ret x -> mb_matches Release b b2 = Ret x).
Proof. exact c57_blocks. Qed.
Print Assumptions C57_blocks.
Example C57_blocks_case : @conceal_except toy Debug b0 [p1] = Ret (b1, Ok 3%N) /\ @conceal_other toy Debug b0 p1 = Ret (b1, Ok tt) /\
  @block_commit_id toy Debug b1 = Ret c0 /\ @merge_reveal toy Debug b1 b3 = Ret (b13, Ok 4%N) /\
  @merge_reveal_path toy Debug b3 pf1 p1 m1 = Ret (b13, Ok 4%N) /\ @to_merkle_proof toy Debug b12 p1 = Ret (Ok pf1) /\
  mb_factored_width Debug b1 = Ret 4%N /\ @mb_matches toy Debug b1 b3 = Ret true.
Proof. exact c57_blocks_case. Qed.

Theorem C57_trees : forall (H : Hasher) t t2 pf p m,
  (forall x, tree_conceal Debug t = Ret x -> tree_conceal Release t = Ret x) /\
  (forall x, tree_commit_id Debug t = Ret x -> tree_commit_id Release t = Ret x) /\
  (forall x, into_proofs Debug t = Ret x -> into_proofs Release t = Ret x) /\
  (forall x, mt_matches Debug t t2 = Ret x -> mt_matches Release t t2 = Ret x) /\
  (forall x, mt_factored_width Debug t = Ret x -> mt_factored_width Release t = Ret x) /\
  (forall x, mp_factored_width Debug pf = Ret x -> mp_factored_width Release pf = Ret x) /\
  (forall x, convolve Debug pf p m = Ret x -> convolve Release pf p m = Ret x).
Proof. exact c57_trees. Qed.
Print Assumptions C57_trees.
Example C57_trees_case : @tree_commit_id toy Debug t0 = Ret c0 /\ @mt_matches toy Debug t0 t0' = Ret false /\
  mt_factored_width Debug t1 = Ret 3%N /\ mp_factored_width Debug pf1 = Ret 4%N /\
  @convolve toy Debug pf1 p1 m1 = Ret (Ok c0) /\
  exists ps, @into_proofs toy Debug t0 = Ret ps /\ map fst ps = [p1; p2; p3].
Proof. exact c57_trees_case. Qed.

Theorem C57_converse_refuted : forall (H : Hasher), exists b c x,
  block_commit_id Release b = Ret c /\ block_commit_id Debug b = Panic x.
Proof. exact c57_converse_refuted. Qed.
Print Assumptions C57_converse_refuted.

Theorem C57_wellformed : forall (H : Hasher) b ids p
  (wf : wf_block b) (once : count_occ b32_eq_dec (known_protocol_ids b) p <= 1),
  conceal_except Debug b ids = conceal_except Release b ids /\
  block_commit_id Debug b = block_commit_id Release b /\
  to_merkle_proof Debug b p = to_merkle_proof Release b p.
Proof. exact c57_wellformed. Qed.
Print Assumptions C57_wellformed.
Example C57_wellformed_case : wf_block b0 /\ count_occ b32_eq_dec (known_protocol_ids b0) p1 = 1 /\
  count_occ b32_eq_dec (known_protocol_ids b0) p5 = 0 /\ @to_merkle_proof toy Release b0 p5 = Ret (Err p5).
Proof. exact c57_wellformed_case. Qed.

Theorem C58_absorb : forall (H : Hasher) md b ids b' n
  (wf : wf_block b) (concealed : conceal_except md b ids = Ret (b', Ok n)),
  exists k, merge_reveal md b b' = Ret (b, Ok k) /\
    merge_reveal md b' b = Ret (MBlock (mb_method b) (mb_depth b) (mb_cofactor b) (mb_cross_section b) None, Ok k) /\
    k = (N.of_nat (length (mb_cross_section b)) mod 2 ^ 16)%N.
Proof. exact c58_absorb. Qed.
Print Assumptions C58_absorb.
Example C58_absorb_case : wf_block b0 /\ @conceal_except toy Debug b0 [p1] = Ret (b1, Ok 3%N) /\
  mb_entropy b0 = Some 7%N /\ @merge_reveal toy Debug b0 b1 = Ret (b0, Ok 4%N).
Proof. exact c58_absorb_case. Qed.

Theorem C58_union : forall (H : Hasher) md b ids1 ids2 b1 b2 n1 n2
  (wf : wf_block b) (concealed1 : conceal_except md b ids1 = Ret (b1, Ok n1))
  (concealed2 : conceal_except md b ids2 = Ret (b2, Ok n2)),
  exists b' k n, merge_reveal md b1 b2 = Ret (b', Ok k) /\ conceal_except md b (ids1 ++ ids2) = Ret (b', Ok n) /\
    merge_reveal md b2 b1 = Ret (b', Ok k).
Proof. exact c58_union. Qed.
Print Assumptions C58_union.
Example C58_union_case : wf_block b0 /\ @conceal_except toy Debug b0 [p1] = Ret (b1, Ok 3%N) /\
  (exists n, @conceal_except toy Debug b0 [p3] = Ret (b3, Ok n)) /\
  @merge_reveal toy Debug b1 b3 = Ret (b13, Ok 4%N) /\ exists n, @conceal_except toy Debug b0 [p1; p3] = Ret (b13, Ok n).
Proof. exact c58_union_case. Qed.

Theorem C53_block : forall (H : Hasher) t, let b := block_of_tree t in
  mb_method b = mt_method t /\ mb_depth b = mt_depth t /\ mb_cofactor b = mt_cofactor t /\ mb_entropy b = Some (mt_entropy t) /\
  N.of_nat (length (mb_cross_section b)) = (2 ^ N.of_nat (mt_depth t))%N /\
  forall i, (N.of_nat i < 2 ^ N.of_nat (mt_depth t))%N ->
    match om_get N.ltb (N.of_nat i) (mt_map t) with
    | Some (p, m) => nth_error (mb_cross_section b) i = Some (CommitmentLeaf p m)
    | None => nth_error (mb_cross_section b) i = Some (ConcealedNode (mt_depth t) (HASH (s_entropy (mt_entropy t) (N.of_nat i))))
    end.
Proof. exact c53_block. Qed.
Print Assumptions C53_block.
Example C53_block_case : mb_cross_section (@block_of_tree toy t0) = mb_cross_section b0 /\ mb_entropy b0 = Some 7%N /\ length (mb_cross_section b0) = 4 /\
  om_get N.ltb 1%N (mt_map t0) = Some (p1, m1) /\ om_get N.ltb 0%N (mt_map t0) = None.
Proof. exact c53_block_case. Qed.
