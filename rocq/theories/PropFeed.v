(** Merging in untrusted blocks after a check of depths: C125 *)
From Coq Require Import Permutation Sorting.Sorted.
From Verif Require Import Base BaseFacts OrdMap Strict Digest Merkle MpcAtoms MpcTree MpcBlock.
From Verif Require Import Engine EngineIo Schemes Seals Api Vesper Sha256 Ripemd Dumb Text Loops Orders Suites MpcTests Serde Steps Work Costs.
From Verif Require Import SpecHash SpecTree SpecMerkle SpecFull SpecValid SpecCommit SpecDerived SpecBlock.
From Verif Require Import SpecBuoy SpecStrings SpecCodec SpecLayout SpecEngine SpecMisc SpecSha SpecDerive SpecLocal SpecSession SpecRipemd SpecEnd Stl SpecStl SpecQuery SpecCount SpecText SpecOrders SpecFind SpecForm SpecGame SpecHideGame SpecViewGame SpecBlockGame SpecSuites SpecExtend SpecCompress SpecTests SpecSerde SpecTalk SpecMany SpecDepth SpecTarget SpecIdGame SpecLate SpecTransfer SpecNest SpecScript SpecSalt SpecOpen SpecChoice SpecPick SpecOffer SpecPlay SpecSeek SpecShare SpecSettled SpecResting SpecDraw SpecFuse SpecFeed.
From Verif Require Import TheoremsMpc TheoremsBlock TheoremsMerkle TheoremsMisc TheoremsMore TheoremsExt TheoremsAdv TheoremsLocal TheoremsSession TheoremsHash TheoremsHide TheoremsEnd TheoremsStl TheoremsQuery TheoremsCount TheoremsText TheoremsFrame TheoremsLoops TheoremsTight TheoremsOrders TheoremsFind TheoremsForm TheoremsGame TheoremsHideGame TheoremsViewGame TheoremsBlockGame TheoremsSuites TheoremsExtend TheoremsCompress TheoremsTests TheoremsSerde TheoremsTalk TheoremsMany TheoremsDepth TheoremsWork TheoremsTarget TheoremsAttack TheoremsIdGame TheoremsLate TheoremsTransfer TheoremsNest TheoremsCosts TheoremsScript TheoremsSalt TheoremsOpen TheoremsChoice TheoremsPick TheoremsOffer TheoremsPlay TheoremsSeek TheoremsShare TheoremsSettled TheoremsResting TheoremsDraw TheoremsFuse TheoremsFeed.
From Verif Require Import CasesMpc CasesMisc CasesMore CasesExt CasesAdv CasesLocal CasesSession CasesHash CasesHide CasesEnd CasesStl CasesQuery CasesCount CasesText CasesFrame CasesLoops CasesTight CasesOrders CasesFind CasesForm CasesGame CasesHideGame CasesViewGame CasesBlockGame CasesSuites CasesExtend CasesCompress CasesTests CasesSerde CasesTalk CasesMany CasesDepth CasesWork CasesTarget CasesAttack CasesIdGame CasesLate CasesTransfer CasesNest CasesCosts CasesScript CasesSalt CasesOpen CasesChoice CasesPick CasesOffer CasesPlay CasesSeek CasesShare CasesSettled CasesResting CasesDraw CasesFuse CasesFeed.
Local Open Scope nat_scope.

Theorem C125_session : forall (H : Hasher) md md' src rng t c L b
  (valid : valid_source src) (made : try_commit src rng = Ret (Ok t)) (tree_id : tree_commit_id md' t = Ret c)
  (held : reception md c L b),
  (exists L', incl L' L /\ session md c L' b) \/ second_in (tree_pre t) L.
Proof. exact c125_session. Qed.
Print Assumptions C125_session.
Example C125_session_case : valid_source src0 /\ try_commit src0 None = Ret (Ok t0) /\ @tree_commit_id toy Release t0 = Ret c0 /\
  @reception toy Release c0 (@pcommit_pre toy 2 0 pt3 ++ @pcommit_pre toy 2 0 pt1) b13 /\ ~ wf_block b1j /\
  @merge_reveal toy Release b3 b1j = Ret (b13, Ok 4%N).
Proof. exact c125_session_case. Qed.

Theorem C125_truth : forall (H : Hasher) md md' src rng t c L b
  (valid : valid_source src) (made : try_commit src rng = Ret (Ok t)) (tree_id : tree_commit_id md' t = Ret c)
  (held : reception md c L b),
  (block_commit_id md b = Ret c /\ mb_depth b = mt_depth t /\ mb_cofactor b = mt_cofactor t /\ wf_block b /\
   (forall p m, In (p, m) (known_leaves (mb_cross_section b)) -> In (p, m) (ms_messages src)) /\
   forall ids, exists b2 r, conceal_except md b ids = Ret (b2, r)) \/
  collision_in (L ++ tree_pre t).
Proof. exact c125_truth. Qed.
Print Assumptions C125_truth.
Example C125_truth_case : valid_source src0 /\ try_commit src0 None = Ret (Ok t0) /\ @tree_commit_id toy Debug t0 = Ret c0 /\
  @reception toy Release c0 (@pcommit_pre toy 2 0 pt3 ++ @pcommit_pre toy 2 0 pt1) b13 /\
  known_leaves (mb_cross_section b13) = [(p1, m1); (p3, m1)].
Proof. exact c125_truth_case. Qed.

Theorem C125_deep_refuted : forall (H : Hasher) p m, exists t c a o b n,
  try_commit (MultiSource Sha256t 0 [(p, m)] (Some 7%N)) None = Ret (Ok t) /\ tree_commit_id Release t = Ret c /\
  valid_block a /\ wf_block a /\ block_commit_id Release a = Ret c /\ valid_block o /\ length (mb_cross_section o) = 3 /\
  (heights_sum (mb_depth o) (mb_cross_section o) < 2 ^ 32)%N /\
  merge_reveal Release a o = Ret (b, Ok n) /\ ~ wf_block b.
Proof. exact c125_deep_refuted. Qed.
Print Assumptions C125_deep_refuted.

Theorem C125_operations : forall (H : Hasher) md md' src rng t c L L' b b'
  (valid : valid_source src) (made : try_commit src rng = Ret (Ok t)) (tree_id : tree_commit_id md' t = Ret c)
  (held : reception md c L b) (held' : reception md c L' b'),
  ((exists b2 n, merge_reveal md b b' = Ret (b2, Ok n) /\
      forall p m, In (p, m) (known_leaves (mb_cross_section b2)) <->
        In (p, m) (known_leaves (mb_cross_section b)) \/ In (p, m) (known_leaves (mb_cross_section b'))) /\
   (forall p m, In (p, m) (known_leaves (mb_cross_section b)) ->
      exists pf, to_merkle_proof md b p = Ret (Ok pf) /\ to_merkle_proof md (block_of_tree t) p = Ret (Ok pf) /\
        convolve md pf p m = Ret (Ok c)) /\
   (forall p, ~ In p (map fst (known_leaves (mb_cross_section b))) -> to_merkle_proof md b p = Ret (Err p))) \/
  collision_in (L ++ L' ++ tree_pre t).
Proof. exact c125_operations. Qed.
Print Assumptions C125_operations.
Example C125_operations_case : valid_source src0 /\ try_commit src0 None = Ret (Ok t0) /\ @tree_commit_id toy Debug t0 = Ret c0 /\
  @reception toy Release c0 (@pcommit_pre toy 2 0 pt3 ++ @pcommit_pre toy 2 0 pt1) b13 /\ @reception toy Release c0 (@pcommit_pre toy 2 0 pt3) b3 /\
  @merge_reveal toy Release b3 b13 = Ret (b13, Ok 4%N).
Proof. exact c125_operations_case. Qed.

Theorem C125_accepts : forall (H : Hasher) md md' src rng t c L b bs o po
  (valid : valid_source src) (made : try_commit src rng = Ret (Ok t)) (tree_id : tree_commit_id md' t = Ret c)
  (held : reception md c L b) (received : dec c_merkle_block bs = Some (o, [])) (well_formed : block_tree o po)
  (related : block_commit_id md o = Ret c),
  acceptable o /\
  ((exists b' n, merge_reveal md b o = Ret (b', Ok n) /\
      forall p m, In (p, m) (known_leaves (mb_cross_section b')) <->
        In (p, m) (known_leaves (mb_cross_section b)) \/ In (p, m) (known_leaves (mb_cross_section o))) \/
   collision_in (L ++ pcommit_pre (mb_depth o) (mb_cofactor o) po ++ tree_pre t)).
Proof. exact c125_accepts. Qed.
Print Assumptions C125_accepts.
Example C125_accepts_case : valid_source src0 /\ try_commit src0 None = Ret (Ok t0) /\ @tree_commit_id toy Debug t0 = Ret c0 /\
  @reception toy Release c0 (@pcommit_pre toy 2 0 pt3) b3 /\ dec c_merkle_block (enc c_merkle_block b1) = Some (b1, []) /\
  block_tree b1 pt1 /\ @block_commit_id toy Release b1 = Ret c0 /\ known_leaves (mb_cross_section b1) = [(p1, m1)].
Proof. exact c125_accepts_case. Qed.

Theorem C125_misled : forall (H : Hasher) md md' src rng t c L b
  (valid : valid_source src) (made : try_commit src rng = Ret (Ok t)) (tree_id : tree_commit_id md' t = Ret c)
  (held : reception md c L b),
  ~ misled md src t c b \/ second_in (tree_pre t) L.
Proof. exact c125_misled. Qed.
Print Assumptions C125_misled.
Example C125_misled_case :
  (valid_source src0 /\ try_commit src0 None = Ret (Ok t0) /\ @tree_commit_id toy Debug t0 = Ret c0 /\
   @reception toy Release c0 (@pcommit_pre toy 2 0 pt3 ++ @pcommit_pre toy 2 0 pt1) b13) /\
  (valid_source src0' /\ try_commit src0' None = Ret (Ok t0') /\ @tree_commit_id flat Debug t0' = Ret cflat /\
   @reception flat Debug cflat (@proof_pre flat pf1 p1 m1) bx1 /\ @misled flat Debug src0' t0' cflat bx1).
Proof. exact c125_misled_case. Qed.

Theorem C125_script : forall n U q k D made (adversary : prog script)
  (strings : universe n U) (short : 162 <= n) (few : modest n q adversary) (before : made_before D made),
  let K := N.of_nat (length made * (2 * 2 ^ D + 2)) in
  rare U (fun H => let s := exec H adversary in
            traffic s <= k /\ exists src t c md b, committed H made src t c /\ @receives H md c s b /\ @misled H md src t c b)
       (K * (K - 1) + 2 * K * N.of_nat (q + k)) (2 ^ 257).
Proof. exact c125_script. Qed.
Print Assumptions C125_script.
Example C125_script_case : (exists U, universe 162 U /\ modest 162 1 adv112 /\ made_before 2 made0 /\
  exists f, length f = length U /\ exec (table U f) adv112 = script0 /\ traffic script0 <= 72 /\
    committed (table U f) made0 src0' t0' cflat /\ @receives (table U f) Debug cflat script0 block0 /\
    @misled (table U f) Debug src0' t0' cflat block0) /\
  @receives toy Release c0 (ScFeed (ScBlock (enc c_merkle_block b3)) (enc c_merkle_block b1j)) b13.
Proof. exact c125_script_case. Qed.
