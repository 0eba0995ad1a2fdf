(** MPC blocks: C08-C21, C50 *)
From Coq Require Import Permutation Sorting.Sorted.
From Verif Require Import Base BaseFacts OrdMap Strict Digest Merkle MpcAtoms MpcTree MpcBlock.
From Verif Require Import Engine EngineIo Schemes Seals Api Vesper Sha256 Ripemd Dumb Text Loops Orders Suites MpcTests Serde Steps Work Costs.
From Verif Require Import SpecHash SpecTree SpecMerkle SpecFull SpecValid SpecCommit SpecDerived SpecBlock.
From Verif Require Import SpecBuoy SpecStrings SpecCodec SpecLayout SpecEngine SpecMisc SpecSha SpecDerive SpecLocal SpecSession SpecRipemd SpecEnd Stl SpecStl SpecQuery SpecCount SpecText SpecOrders SpecFind SpecForm SpecGame SpecHideGame SpecViewGame SpecBlockGame SpecSuites SpecExtend SpecCompress SpecTests SpecSerde SpecTalk SpecMany SpecDepth SpecTarget SpecIdGame SpecLate SpecTransfer SpecNest SpecScript SpecSalt SpecOpen SpecChoice SpecPick SpecOffer SpecPlay SpecSeek SpecShare SpecSettled SpecResting SpecDraw SpecFuse SpecFeed.
From Verif Require Import TheoremsMpc TheoremsBlock TheoremsMerkle TheoremsMisc TheoremsMore TheoremsExt TheoremsAdv TheoremsLocal TheoremsSession TheoremsHash TheoremsHide TheoremsEnd TheoremsStl TheoremsQuery TheoremsCount TheoremsText TheoremsFrame TheoremsLoops TheoremsTight TheoremsOrders TheoremsFind TheoremsForm TheoremsGame TheoremsHideGame TheoremsViewGame TheoremsBlockGame TheoremsSuites TheoremsExtend TheoremsCompress TheoremsTests TheoremsSerde TheoremsTalk TheoremsMany TheoremsDepth TheoremsWork TheoremsTarget TheoremsAttack TheoremsIdGame TheoremsLate TheoremsTransfer TheoremsNest TheoremsCosts TheoremsScript TheoremsSalt TheoremsOpen TheoremsChoice TheoremsPick TheoremsOffer TheoremsPlay TheoremsSeek TheoremsShare TheoremsSettled TheoremsResting TheoremsDraw TheoremsFuse TheoremsFeed.
From Verif Require Import CasesMpc CasesMisc CasesMore CasesExt CasesAdv CasesLocal CasesSession CasesHash CasesHide CasesEnd CasesStl CasesQuery CasesCount CasesText CasesFrame CasesLoops CasesTight CasesOrders CasesFind CasesForm CasesGame CasesHideGame CasesViewGame CasesBlockGame CasesSuites CasesExtend CasesCompress CasesTests CasesSerde CasesTalk CasesMany CasesDepth CasesWork CasesTarget CasesAttack CasesIdGame CasesLate CasesTransfer CasesNest CasesCosts CasesScript CasesSalt CasesOpen CasesChoice CasesPick CasesOffer CasesPlay CasesSeek CasesShare CasesSettled CasesResting CasesDraw CasesFuse CasesFeed.
Local Open Scope nat_scope.

Theorem C08_conceal : forall (H : Hasher) md b ids
  (wf : wf_block b) (revealed : forall p, In p ids -> In p (known_protocol_ids b)),
  exists b' n c, conceal_except md b ids = Ret (b', Ok n) /\ wf_block b' /\
    block_commit_id md b = Ret c /\ block_commit_id md b' = Ret c /\
    known_leaves (mb_cross_section b') =
      filter (fun e => existsb (b32_eqb (fst e)) ids) (known_leaves (mb_cross_section b)) /\
    mb_entropy b' = None /\ mb_method b' = mb_method b /\ mb_depth b' = mb_depth b /\
    mb_cofactor b' = mb_cofactor b.
Proof. exact c08_conceal. Qed.
Print Assumptions C08_conceal.
Example C08_conceal_case :
  wf_block b0 /\ incl [p1; p2] (known_protocol_ids b0) /\
  @conceal_except toy Debug b0 [p1; p2] = Ret (b12, Ok 1%N) /\
  known_leaves (mb_cross_section b12) = [(p1, m1); (p2, m2)].
Proof. exact c08_conceal_case. Qed.

Theorem C08_conceal_other : forall (H : Hasher) md b p b' r,
  conceal_other md b p = Ret (b', r) <->
  exists r', conceal_except md b [p] = Ret (b', r') /\
    r = match r' with Ok _ => Ok tt | Err q => Err q end.
Proof. exact c08_conceal_other. Qed.
Print Assumptions C08_conceal_other.
Example C08_conceal_other_case :
  @conceal_other toy Debug b0 p1 = Ret (b1, Ok tt) /\ exists b, @conceal_other toy Debug b0 m1 = Ret (b, Err m1).
Proof. exact c08_conceal_other_case. Qed.

Theorem C09_maximal : forall (H : Hasher) md b ids b' n
  (wf : wf_block b) (done : conceal_except md b ids = Ret (b', Ok n)),
  exists t', block_tree b' t' /\ pmaximal t'.
Proof. exact c09_maximal. Qed.
Print Assumptions C09_maximal.
Example C09_maximal_case : wf_block b0 /\ @conceal_except toy Debug b0 [p1] = Ret (b1, Ok 3%N) /\ pmaximal pt1 /\
  block_tree b1 pt1 /\ length (mb_cross_section b1) = 3.
Proof. exact c09_maximal_case. Qed.

Theorem C09_any_order : forall (H : Hasher) md b ids ids' b' n
  (wf : wf_block b) (same : forall p, In p ids <-> In p ids')
  (done : conceal_except md b ids = Ret (b', Ok n)),
  conceal_except md b ids' = Ret (b', Ok n).
Proof. exact c09_any_order. Qed.
Print Assumptions C09_any_order.
Example C09_any_order_case : wf_block b0 /\ (forall p, In p [p1; p2] <-> In p [p2; p1; p2]) /\
  @conceal_except toy Debug b0 [p1; p2] = Ret (b12, Ok 1%N).
Proof. exact c09_any_order_case. Qed.

Theorem C09_two_steps : forall (H : Hasher) md b big ids b1 n1 b2 n2
  (wf : wf_block b) (subset : incl ids big)
  (first : conceal_except md b big = Ret (b1, Ok n1)) (second : conceal_except md b1 ids = Ret (b2, Ok n2)),
  exists n, conceal_except md b ids = Ret (b2, Ok n).
Proof. exact c09_two_steps. Qed.
Print Assumptions C09_two_steps.
Example C09_two_steps_case : wf_block b0 /\ incl [p1] [p1; p2] /\
  @conceal_except toy Debug b0 [p1; p2] = Ret (b12, Ok 1%N) /\ @conceal_except toy Debug b12 [p1] = Ret (b1, Ok 2%N).
Proof. exact c09_two_steps_case. Qed.

Theorem C09_canonical : forall (H : Hasher) md src rng t b1 b2 ids b1' n1 b2' n2
  (valid : valid_source src) (made : try_commit src rng = Ret (Ok t))
  (from1 : derived md t b1) (from2 : derived md t b2)
  (done1 : conceal_except md b1 ids = Ret (b1', Ok n1)) (done2 : conceal_except md b2 ids = Ret (b2', Ok n2)),
  b1' = b2'.
Proof. exact c09_canonical. Qed.
Print Assumptions C09_canonical.
Example C09_canonical_case : valid_source src0 /\ try_commit src0 None = Ret (Ok t0) /\
  @derived toy Debug t0 b0 /\ @derived toy Debug t0 b12 /\ b0 <> b12 /\
  @conceal_except toy Debug b0 [p1] = Ret (b1, Ok 3%N) /\ @conceal_except toy Debug b12 [p1] = Ret (b1, Ok 2%N).
Proof. exact c09_canonical_case. Qed.

Theorem C10_unknown : forall (H : Hasher) md b ids p
  (wf : wf_block b) (asked : In p ids) (unknown : ~ In p (known_protocol_ids b)),
  exists b' q c, conceal_except md b ids = Ret (b', Err q) /\
    In q ids /\ ~ In q (known_protocol_ids b) /\
    (forall x, In x ids -> ~ In x (known_protocol_ids b) -> x = q \/ b32_ltb q x = true) /\
    wf_block b' /\ block_commit_id md b = Ret c /\ block_commit_id md b' = Ret c.
Proof. exact c10_unknown. Qed.
Print Assumptions C10_unknown.
Example C10_unknown_case : wf_block b0 /\ ~ In m1 (known_protocol_ids b0) /\ ~ In m2 (known_protocol_ids b0) /\
  exists b, @conceal_except toy Debug b0 [p1; m2; m1] = Ret (b, Err m1).
Proof. exact c10_unknown_case. Qed.

Theorem C10_exactly : forall (H : Hasher) md b ids (wf : wf_block b),
  (exists b' q, conceal_except md b ids = Ret (b', Err q)) <->
  exists p, In p ids /\ ~ In p (known_protocol_ids b).
Proof. exact c10_exactly. Qed.
Print Assumptions C10_exactly.
Example C10_exactly_case : wf_block b0 /\
  (exists b, @conceal_except toy Debug b0 [p1; m1] = Ret (b, Err m1)) /\
  (exists b n, @conceal_except toy Debug b0 [p1; p3] = Ret (b, Ok n)).
Proof. exact c10_exactly_case. Qed.

Theorem C10_proof_unknown : forall (H : Hasher) md b p (wf : wf_block b),
  ~ In p (known_protocol_ids b) -> to_merkle_proof md b p = Ret (Err p).
Proof. exact c10_proof_unknown. Qed.
Print Assumptions C10_proof_unknown.
Example C10_proof_unknown_case : wf_block b1 /\ ~ In p2 (known_protocol_ids b1) /\
  @to_merkle_proof toy Debug b1 p2 = Ret (Err p2) /\ @to_merkle_proof toy Debug b1 p1 = Ret (Ok pf1).
Proof. exact c10_proof_unknown_case. Qed.

Theorem C10_atomic_refuted : exists b ids, wf_block b /\
  forall (H : Hasher) md, exists b' q, conceal_except md b ids = Ret (b', Err q) /\
    mb_entropy b' <> mb_entropy b /\
    known_leaves (mb_cross_section b') <> known_leaves (mb_cross_section b).
Proof. exact c10_atomic_refuted. Qed.
Print Assumptions C10_atomic_refuted.

Theorem C11_count : forall (H : Hasher) md b ids b' n
  (wf : wf_block b) (done : conceal_except md b ids = Ret (b', Ok n)),
  length (mb_cross_section b') <= length (mb_cross_section b) /\
  length (known_leaves (mb_cross_section b')) <= length (known_leaves (mb_cross_section b)) /\
  n = N.of_nat ((length (known_leaves (mb_cross_section b)) - length (known_leaves (mb_cross_section b'))) +
                (length (mb_cross_section b) - length (mb_cross_section b'))).
Proof. exact c11_count. Qed.
Print Assumptions C11_count.
Example C11_count_case : wf_block b0 /\ @conceal_except toy Debug b0 [p1] = Ret (b1, Ok 3%N) /\
  length (mb_cross_section b0) = 4 /\ length (mb_cross_section b1) = 3.
Proof. exact c11_count_case. Qed.

Theorem C12_proof_block : forall (H : Hasher) md src rng t b pid msg
  (valid : valid_source src) (made : try_commit src rng = Ret (Ok t)) (from : derived md t b)
  (revealed : In (pid, msg) (known_leaves (mb_cross_section b))),
  exists pf b', to_merkle_proof md b pid = Ret (Ok pf) /\
    conceal_other md b pid = Ret (b', Ok tt) /\ block_with pf pid msg = Ret (Ok b') /\
    known_leaves (mb_cross_section b') = [(pid, msg)] /\
    length (mp_path pf) = mb_depth b /\ mp_pos pf = s_pos pid (mb_cofactor b) (mb_depth b) /\
    mp_cofactor pf = mb_cofactor b /\ mp_method pf = mb_method b.
Proof. exact c12_proof_block. Qed.
Print Assumptions C12_proof_block.
Example C12_proof_block_case : valid_source src0 /\ try_commit src0 None = Ret (Ok t0) /\ @derived toy Debug t0 b12 /\
  In (p1, m1) (known_leaves (mb_cross_section b12)) /\
  @to_merkle_proof toy Debug b12 p1 = Ret (Ok pf1) /\ block_with pf1 p1 m1 = Ret (Ok b1).
Proof. exact c12_proof_block_case. Qed.

Theorem C13_merge : forall (H : Hasher) md b1 b2 t1 t2 c
  (wf1 : block_tree b1 t1) (wf2 : block_tree b2 t2)
  (id1 : block_commit_id md b1 = Ret c) (id2 : block_commit_id md b2 = Ret c),
  (exists b t n, merge_reveal md b1 b2 = Ret (b, Ok n) /\ block_tree b t /\ block_commit_id md b = Ret c /\
     mb_method b = mb_method b1 /\ mb_depth b = mb_depth b1 /\ mb_cofactor b = mb_cofactor b1 /\
     mb_depth b = mb_depth b2 /\ mb_cofactor b = mb_cofactor b2 /\ mb_entropy b = mb_entropy b1 /\
     StronglySorted N.lt (map fst (pleaves_at (mb_depth b) 0 0 t)) /\
     forall x, In x (pleaves_at (mb_depth b) 0 0 t) <->
       In x (pleaves_at (mb_depth b) 0 0 t1) \/ In x (pleaves_at (mb_depth b) 0 0 t2)) \/
  collision_in (pcommit_pre (mb_depth b1) (mb_cofactor b1) t1 ++ pcommit_pre (mb_depth b2) (mb_cofactor b2) t2).
Proof. exact c13_merge. Qed.
Print Assumptions C13_merge.
Example C13_merge_case : block_tree b1 pt1 /\ block_tree b3 pt3 /\
  @block_commit_id toy Debug b1 = Ret c0 /\ @block_commit_id toy Debug b3 = Ret c0 /\
  @merge_reveal toy Debug b1 b3 = Ret (b13, Ok 4%N) /\
  mb_cross_section b13 = [ConcealedNode 2 e0; CommitmentLeaf p1 m1; ConcealedNode 2 h2; CommitmentLeaf p3 m1].
Proof. exact c13_merge_case. Qed.

Theorem C14_unrelated : forall (H : Hasher) md b1 b2 c1 c2
  (id1 : block_commit_id md b1 = Ret c1) (id2 : block_commit_id md b2 = Ret c2) (different : c1 <> c2),
  merge_reveal md b1 b2 = Ret (b1, Err (UnrelatedBlocks c1 c2)).
Proof. exact c14_unrelated. Qed.
Print Assumptions C14_unrelated.
Example C14_unrelated_case : @block_commit_id toy Debug b0 = Ret c0 /\ @block_commit_id toy Debug b0' = Ret c0' /\ c0 <> c0'.
Proof. exact c14_unrelated_case. Qed.

Theorem C14_commits : forall (H : Hasher) md b (wf : wf_block b), exists c, block_commit_id md b = Ret c.
Proof. exact c14_commits. Qed.
Print Assumptions C14_commits.
Example C14_commits_case : wf_block b1 /\ @block_commit_id toy Release b1 = Ret c0.
Proof. exact c14_commits_case. Qed.

Theorem C14_bad_path : forall (H : Hasher) md b pf pid msg
  (short : length (mp_path pf) <= 31)
  (wrong : s_pos pid (mp_cofactor pf) (length (mp_path pf)) <> mp_pos pf),
  merge_reveal_path md b pf pid msg =
  Ret (b, Err (MInvalidProof (InvalidProof pid (s_pos pid (mp_cofactor pf) (length (mp_path pf))) (mp_pos pf)
                                (2 ^ N.of_nat (length (mp_path pf))))))%N.
Proof. exact c14_bad_path. Qed.
Print Assumptions C14_bad_path.
Example C14_bad_path_case : length (mp_path pf1) = 2 /\ s_pos p2 (mp_cofactor pf1) 2 <> mp_pos pf1 /\
  @merge_reveal_path toy Debug b3 pf1 p2 m1 = Ret (b3, Err (MInvalidProof (InvalidProof p2 2 1 4))).
Proof. exact c14_bad_path_case. Qed.

Theorem C14_good_path : forall (H : Hasher) md b pf pid msg
  (short : length (mp_path pf) <= 31)
  (right : s_pos pid (mp_cofactor pf) (length (mp_path pf)) = mp_pos pf),
  exists b2, block_with pf pid msg = Ret (Ok b2) /\ merge_reveal_path md b pf pid msg = merge_reveal md b b2 /\
    convolve md pf pid msg = (c <- block_commit_id md b2 ;; Ret (Ok c)).
Proof. exact c14_good_path. Qed.
Print Assumptions C14_good_path.
Example C14_good_path_case : length (mp_path pf1) = 2 /\ s_pos p1 (mp_cofactor pf1) 2 = mp_pos pf1 /\
  @merge_reveal_path toy Debug b3 pf1 p1 m1 = Ret (b13, Ok 4%N).
Proof. exact c14_good_path_case. Qed.

Theorem C15_semilattice : forall (H : Hasher) md src rng t a b c
  (valid : valid_source src) (made : try_commit src rng = Ret (Ok t))
  (froma : derived md t a) (fromb : derived md t b) (fromc : derived md t c),
  exists aa ab ba bc ab_c a_bc na nab nba nbc n1 n2,
    merge_reveal md a a = Ret (aa, Ok na) /\ mb_cross_section aa = mb_cross_section a /\
    merge_reveal md a b = Ret (ab, Ok nab) /\ merge_reveal md b a = Ret (ba, Ok nba) /\
    mb_cross_section ab = mb_cross_section ba /\
    merge_reveal md b c = Ret (bc, Ok nbc) /\
    merge_reveal md ab c = Ret (ab_c, Ok n1) /\ merge_reveal md a bc = Ret (a_bc, Ok n2) /\
    ab_c = a_bc /\ derived md t ab_c.
Proof. exact c15_semilattice. Qed.
Print Assumptions C15_semilattice.
Example C15_semilattice_case : valid_source src0 /\ try_commit src0 None = Ret (Ok t0) /\
  @derived toy Debug t0 b1 /\ @derived toy Debug t0 b3 /\ @derived toy Debug t0 b12 /\ b1 <> b3 /\ b12 <> b1.
Proof. exact c15_semilattice_case. Qed.

Theorem C15_collect : forall (H : Hasher) md src rng t ids ids'
  (valid : valid_source src) (made : try_commit src rng = Ret (Ok t)) (nonempty : ids <> [])
  (known : forall p, In p ids -> In p (map fst (ms_messages src))) (same : forall p, In p ids <-> In p ids'),
  exists b n, collected md t ids b /\ conceal_except md (block_of_tree t) ids' = Ret (b, Ok n) /\
    forall b', collected md t ids b' -> b' = b.
Proof. exact c15_collect. Qed.
Print Assumptions C15_collect.
Example C15_collect_case : valid_source src0 /\ try_commit src0 None = Ret (Ok t0) /\
  (forall p, In p [p3; p1] -> In p (map fst (ms_messages src0))) /\ (forall p, In p [p3; p1] <-> In p [p1; p3; p1]) /\
  @collected toy Debug t0 [p3; p1] b13.
Proof. exact c15_collect_case. Qed.

Theorem C16_merge_any : forall (H : Hasher) md b1 b2 b n
  (merged : merge_reveal md b1 b2 = Ret (b, Ok n)),
  exists c, block_commit_id md b1 = Ret c /\ block_commit_id md b2 = Ret c /\ block_commit_id md b = Ret c /\
    mb_method b = mb_method b1 /\ mb_depth b = mb_depth b1 /\ mb_cofactor b = mb_cofactor b1 /\
    mb_entropy b = mb_entropy b1.
Proof. exact c16_merge_any. Qed.
Print Assumptions C16_merge_any.
Example C16_merge_any_case : valid_block b1 /\ valid_block b3 /\ @merge_reveal toy Debug b1 b3 = Ret (b13, Ok 4%N) /\
  @merge_reveal toy Release b1 b3 = Ret (b13, Ok 4%N).
Proof. exact c16_merge_any_case. Qed.

Theorem C16_heights_debug : forall (H : Hasher) b1 b2 b n
  (merged : merge_reveal Debug b1 b2 = Ret (b, Ok n)),
  heights_sum (mb_depth b) (mb_cross_section b) = (2 ^ N.of_nat (mb_depth b))%N /\
  Forall (fun x => match x with ConcealedNode d _ => d <= mb_depth b | _ => True end) (mb_cross_section b).
Proof. exact c16_heights_debug. Qed.
Print Assumptions C16_heights_debug.
Example C16_heights_debug_case : @merge_reveal toy Debug b1 b3 = Ret (b13, Ok 4%N) /\
  heights_sum 2 (mb_cross_section b13) = 4%N.
Proof. exact c16_heights_debug_case. Qed.

Theorem C16_representable : forall (H : Hasher) md b1 b2 b n
  (valid1 : valid_block b1) (valid2 : valid_block b2)
  (merged : merge_reveal md b1 b2 = Ret (b, Ok n)), valid_block b.
Proof. exact c16_representable. Qed.
Print Assumptions C16_representable.
(* Hypotheses met: see C16_merge_any_case. *)

Theorem C16_heights_release : forall (H : Hasher) b1 b2 b n
  (valid1 : valid_block b1) (valid2 : valid_block b2)
  (merged : merge_reveal Release b1 b2 = Ret (b, Ok n)),
  (heights_sum (mb_depth b) (mb_cross_section b) mod 2 ^ 32 = 2 ^ N.of_nat (mb_depth b))%N.
Proof. exact c16_heights_release. Qed.
Print Assumptions C16_heights_release.
(* Hypotheses met: see C16_merge_any_case. *)

Theorem C16_heights_release_refuted : exists b, valid_block b /\
  (heights_sum (mb_depth b) (mb_cross_section b) = 2 ^ 32 + 2 ^ N.of_nat (mb_depth b))%N /\
  forall (H : Hasher), merge_reveal Release b b = Ret (b, Ok 4%N).
Proof. exact c16_heights_release_refuted. Qed.
Print Assumptions C16_heights_release_refuted.

Theorem C17_debug_domain : forall (H : Hasher) b (valid : valid_block b),
  (exists c, block_commit_id Debug b = Ret c) <->
  exists t, mb_cross_section b = flatten 0 t /\ pwf_loose (mb_depth b) 0 t.
Proof. exact c17_debug_domain. Qed.
Print Assumptions C17_debug_domain.
Example C17_debug_domain_case : valid_block b1 /\ @block_commit_id toy Debug b1 = Ret c0 /\
  mb_cross_section b1 = flatten 0 pt1 /\ pwf_loose (mb_depth b1) 0 pt1.
Proof. exact c17_debug_domain_case. Qed.

Theorem C17_value : forall (H : Hasher) md b t (valid : valid_block b)
  (frontier : mb_cross_section b = flatten 0 t) (leaves : pwf_loose (mb_depth b) 0 t),
  block_commit_id md b = Ret (pcommit (mb_depth b) (mb_cofactor b) t).
Proof. exact c17_value. Qed.
Print Assumptions C17_value.
(* Hypotheses met: see C17_debug_domain_case. *)

Theorem C17_total_refuted : exists b, valid_block b /\
  (forall (H : Hasher), exists p, block_commit_id Debug b = Panic p).
Proof. exact c17_total_refuted. Qed.
Print Assumptions C17_total_refuted.

Theorem C17_total_release_refuted : exists b, valid_block b /\
  (forall (H : Hasher), exists p, block_commit_id Release b = Panic p).
Proof. exact c17_total_release_refuted. Qed.
Print Assumptions C17_total_release_refuted.

Theorem C18_vouches : forall (H : Hasher) md b src rng t c
  (validb : valid_block b) (valid : valid_source src) (made : try_commit src rng = Ret (Ok t))
  (block_id : block_commit_id Debug b = Ret c) (tree_id : tree_commit_id md t = Ret c),
  (mb_depth b = mt_depth t /\ mb_cofactor b = mt_cofactor t /\
   forall p m, In (p, m) (known_leaves (mb_cross_section b)) -> In (p, m) (ms_messages src)) \/
  exists pt, mb_cross_section b = flatten 0 pt /\
    collision_in (pcommit_pre (mb_depth b) (mb_cofactor b) pt ++ tree_pre t).
Proof. exact c18_vouches. Qed.
Print Assumptions C18_vouches.
Example C18_vouches_case : valid_block b1 /\ valid_source src0 /\ try_commit src0 None = Ret (Ok t0) /\
  @block_commit_id toy Debug b1 = Ret c0 /\ @tree_commit_id toy Debug t0 = Ret c0 /\
  known_leaves (mb_cross_section b1) = [(p1, m1)].
Proof. exact c18_vouches_case. Qed.

Theorem C18_release_refuted : forall (H : Hasher) b c p m
  (wf : wf_block b) (id : block_commit_id Release b = Ret c),
  exists b', valid_block b' /\ block_commit_id Release b' = Ret c /\
    known_leaves (mb_cross_section b') = [(p, m)] /\
    mb_method b' = mb_method b /\ mb_depth b' = mb_depth b /\ mb_cofactor b' = mb_cofactor b.
Proof. exact c18_release_refuted. Qed.
Print Assumptions C18_release_refuted.
Example C18_release_refuted_case : wf_block b0 /\ @block_commit_id toy Release b0 = Ret c0.
Proof. exact c18_release_refuted_case. Qed.

Theorem C19_one_message : forall (H : Hasher) md b1 b2 t1 t2 c p m m'
  (wf1 : block_tree b1 t1) (wf2 : block_tree b2 t2)
  (placed1 : well_placed (mb_depth b1) (mb_cofactor b1) t1) (placed2 : well_placed (mb_depth b2) (mb_cofactor b2) t2)
  (id1 : block_commit_id md b1 = Ret c) (id2 : block_commit_id md b2 = Ret c)
  (reveals1 : In (p, m) (known_leaves (mb_cross_section b1)))
  (reveals2 : In (p, m') (known_leaves (mb_cross_section b2))),
  m = m' \/
  collision_in (pcommit_pre (mb_depth b1) (mb_cofactor b1) t1 ++ pcommit_pre (mb_depth b2) (mb_cofactor b2) t2).
Proof. exact c19_one_message. Qed.
Print Assumptions C19_one_message.
Example C19_one_message_case :
  let b := MBlock Sha256t 2 0 (flatten 0 pt1') None in
  block_tree b1 pt1 /\ block_tree b pt1' /\ well_placed 2 0 pt1 /\ well_placed 2 0 pt1' /\
  @block_commit_id flat Debug b1 = Ret cflat /\ @block_commit_id flat Debug b = Ret cflat /\
  In (p1, m1) (known_leaves (mb_cross_section b1)) /\ In (p1, m2) (known_leaves (mb_cross_section b)) /\
  @block_commit_id toy Debug b1 <> @block_commit_id toy Debug b.
Proof. exact c19_one_message_case. Qed.

Theorem C19_unplaced_refuted : forall (H : Hasher) md, exists b1 b2 c p m m',
  wf_block b1 /\ wf_block b2 /\ block_commit_id md b1 = Ret c /\ block_commit_id md b2 = Ret c /\
  In (p, m) (known_leaves (mb_cross_section b1)) /\ In (p, m') (known_leaves (mb_cross_section b2)) /\ m <> m'.
Proof. exact c19_unplaced_refuted. Qed.
Print Assumptions C19_unplaced_refuted.

Theorem C20_matches : forall (H : Hasher) md a b (wfa : wf_block a) (wfb : wf_block b),
  exists r, mb_matches md a b = Ret r /\ (r = true <-> block_commit_id md a = block_commit_id md b).
Proof. exact c20_matches. Qed.
Print Assumptions C20_matches.
Example C20_matches_case : wf_block b1 /\ wf_block b3 /\ @mb_matches toy Debug b1 b3 = Ret true /\
  @mb_matches toy Debug b1 b0' = Ret false.
Proof. exact c20_matches_case. Qed.

Theorem C20_equivalence : forall (H : Hasher) md a b c (wfa : wf_block a) (wfb : wf_block b) (wfc : wf_block c),
  mb_matches md a a = Ret true /\
  (mb_matches md a b = Ret true -> mb_matches md b a = Ret true) /\
  (mb_matches md a b = Ret true -> mb_matches md b c = Ret true -> mb_matches md a c = Ret true).
Proof. exact c20_equivalence. Qed.
Print Assumptions C20_equivalence.
(* Hypotheses met: see C20_matches_case. *)

Theorem C20_operations : forall (H : Hasher) md a b r,
  (forall (wf : wf_block a) ids, conceal_except md a ids = Ret (b, r) -> mb_matches md a b = Ret true) /\
  (forall c n, merge_reveal md a c = Ret (b, Ok n) -> mb_matches md a b = Ret true /\ mb_matches md c b = Ret true).
Proof. exact c20_operations. Qed.
Print Assumptions C20_operations.
Example C20_operations_case : wf_block b0 /\ @conceal_except toy Debug b0 [p1] = Ret (b1, Ok 3%N) /\
  @mb_matches toy Debug b0 b1 = Ret true /\ @merge_reveal toy Debug b1 b3 = Ret (b13, Ok 4%N).
Proof. exact c20_operations_case. Qed.

Theorem C20_trees : forall (H : Hasher) md src1 rng1 t1 src2 rng2 t2
  (valid1 : valid_source src1) (made1 : try_commit src1 rng1 = Ret (Ok t1))
  (valid2 : valid_source src2) (made2 : try_commit src2 rng2 = Ret (Ok t2)),
  (exists r, mt_matches md t1 t2 = Ret r /\ (r = true <-> tree_commit_id md t1 = tree_commit_id md t2)) /\
  mb_matches md (block_of_tree t1) (block_of_tree t2) = mt_matches md t1 t2 /\
  mt_matches md t1 t1 = Ret true.
Proof. exact c20_trees. Qed.
Print Assumptions C20_trees.
Example C20_trees_case : valid_source src0 /\ try_commit src0 None = Ret (Ok t0) /\
  valid_source src0' /\ try_commit src0' None = Ret (Ok t0') /\
  @mt_matches toy Debug t0 t0' = Ret false /\ @mt_matches toy Debug t0 t0 = Ret true.
Proof. exact c20_trees_case. Qed.

Theorem C21_decides : forall p q,
  mp_matches p q = true <-> mp_cofactor p = mp_cofactor q /\ hd_error (mp_path p) = hd_error (mp_path q).
Proof. exact c21_decides. Qed.
Print Assumptions C21_decides.
Example C21_decides_case : mp_matches pf1 pf1 = true /\ mp_matches pf1 (MProof Sha256t 1 1 (mp_path pf1)) = false /\
  mp_matches pf1 (MProof Sha256t 2 0 [h23]) = true.
Proof. exact c21_decides_case. Qed.

Theorem C21_same_tree_refuted : exists src t, valid_source src /\ try_commit src None = Ret (Ok t) /\
  forall (H : Hasher) md, exists pa pb,
    to_merkle_proof md (block_of_tree t) p1 = Ret (Ok pa) /\ to_merkle_proof md (block_of_tree t) p2 = Ret (Ok pb) /\
    (mp_matches pa pb = true -> collision_in [s_leaf p1 m1; s_leaf p2 m2]).
Proof. exact c21_same_tree_refuted. Qed.
Print Assumptions C21_same_tree_refuted.

Theorem C21_same_commitment_refuted : exists pa pb, valid_proof pa /\ valid_proof pb /\ mp_matches pa pb = true /\
  forall (H : Hasher) md pid msg, s_pos pid 0 2 = 0%N -> exists ca cb,
    convolve md pa pid msg = Ret (Ok ca) /\ convolve md pb pid msg = Ret (Ok cb) /\
    (ca = cb -> collision_in (proof_pre pa pid msg ++ proof_pre pb pid msg)).
Proof. exact c21_same_commitment_refuted. Qed.
Print Assumptions C21_same_commitment_refuted.

Theorem C50_length : forall (H : Hasher) md b1 b2 b n
  (merged : merge_reveal md b1 b2 = Ret (b, Ok n)),
  n = (N.of_nat (length (mb_cross_section b)) mod 2 ^ 16)%N /\
  ((N.of_nat (length (mb_cross_section b)) < 2 ^ 16)%N -> n = N.of_nat (length (mb_cross_section b))).
Proof. exact c50_length. Qed.
Print Assumptions C50_length.
Example C50_length_case : @merge_reveal toy Debug b1 b3 = Ret (b13, Ok 4%N) /\ length (mb_cross_section b13) = 4.
Proof. exact c50_length_case. Qed.

Theorem C50_length_refuted : exists b, wf_block b /\ N.of_nat (length (mb_cross_section b)) = 65536%N /\
  forall (H : Hasher) md, merge_reveal md b b = Ret (b, Ok 0%N).
Proof. exact c50_length_refuted. Qed.
Print Assumptions C50_length_refuted.
