(** SHA-256, uniqueness of proofs and blocks, blinding, anchored seals, sizes: C59-C64 *)
From Coq Require Import Permutation Sorting.Sorted.
From Verif Require Import Base BaseFacts OrdMap Strict Digest Merkle MpcAtoms MpcTree MpcBlock.
From Verif Require Import Engine EngineIo Schemes Seals Api Vesper Sha256 Ripemd Dumb Text Loops Orders Suites MpcTests Serde Steps Work Costs.
From Verif Require Import SpecHash SpecTree SpecMerkle SpecFull SpecValid SpecCommit SpecDerived SpecBlock.
From Verif Require Import SpecBuoy SpecStrings SpecCodec SpecLayout SpecEngine SpecMisc SpecSha SpecDerive SpecLocal SpecSession SpecRipemd SpecEnd Stl SpecStl SpecQuery SpecCount SpecText SpecOrders SpecFind SpecForm SpecGame SpecHideGame SpecViewGame SpecBlockGame SpecSuites SpecExtend SpecCompress SpecTests SpecSerde SpecTalk SpecMany SpecDepth SpecTarget SpecIdGame SpecLate SpecTransfer SpecNest SpecScript SpecSalt SpecOpen SpecChoice SpecPick SpecOffer SpecPlay SpecSeek SpecShare SpecSettled SpecResting SpecDraw SpecFuse SpecFeed.
From Verif Require Import TheoremsMpc TheoremsBlock TheoremsMerkle TheoremsMisc TheoremsMore TheoremsExt TheoremsAdv TheoremsLocal TheoremsSession TheoremsHash TheoremsHide TheoremsEnd TheoremsStl TheoremsQuery TheoremsCount TheoremsText TheoremsFrame TheoremsLoops TheoremsTight TheoremsOrders TheoremsFind TheoremsForm TheoremsGame TheoremsHideGame TheoremsViewGame TheoremsBlockGame TheoremsSuites TheoremsExtend TheoremsCompress TheoremsTests TheoremsSerde TheoremsTalk TheoremsMany TheoremsDepth TheoremsWork TheoremsTarget TheoremsAttack TheoremsIdGame TheoremsLate TheoremsTransfer TheoremsNest TheoremsCosts TheoremsScript TheoremsSalt TheoremsOpen TheoremsChoice TheoremsPick TheoremsOffer TheoremsPlay TheoremsSeek TheoremsShare TheoremsSettled TheoremsResting TheoremsDraw TheoremsFuse TheoremsFeed.
From Verif Require Import CasesMpc CasesMisc CasesMore CasesExt CasesAdv CasesLocal CasesSession CasesHash CasesHide CasesEnd CasesStl CasesQuery CasesCount CasesText CasesFrame CasesLoops CasesTight CasesOrders CasesFind CasesForm CasesGame CasesHideGame CasesViewGame CasesBlockGame CasesSuites CasesExtend CasesCompress CasesTests CasesSerde CasesTalk CasesMany CasesDepth CasesWork CasesTarget CasesAttack CasesIdGame CasesLate CasesTransfer CasesNest CasesCosts CasesScript CasesSalt CasesOpen CasesChoice CasesPick CasesOffer CasesPlay CasesSeek CasesShare CasesSettled CasesResting CasesDraw CasesFuse CasesFeed.
Local Open Scope nat_scope.

Theorem C59_fips : forall x d, (exists calls, sha_run x calls d) <-> d = b32 (sha256 x).
Proof. exact c59_fips. Qed.
Print Assumptions C59_fips.
Example C59_fips_case : exists calls, sha_run (str "abc") calls
  [xba; x78; x16; xbf; x8f; x01; xcf; xea; x41; x41; x40; xde; x5d; xae; x22; x23;
   xb0; x03; x61; xa3; x96; x17; x7a; x9c; xb4; x10; xff; x61; xf2; x00; x15; xad].
Proof. exact c59_fips_case. Qed.

Theorem C59_reduction : forall L (fit : Forall short L),
  @collision_in sha256 L -> compress_collision_in L.
Proof. exact c59_reduction. Qed.
Print Assumptions C59_reduction.
Example C59_reduction_case : Forall short [str "abc"; @s_leaf sha256 p1 m1].
Proof. exact c59_reduction_case. Qed.

Theorem C59_one_message : forall md1 md2 pf1 pf2 pid m1 m2 c
  (valid1 : valid_proof pf1) (valid2 : valid_proof pf2)
  (conv1 : @convolve sha256 md1 pf1 pid m1 = Ret (Ok c)) (conv2 : @convolve sha256 md2 pf2 pid m2 = Ret (Ok c)),
  m1 = m2 \/ compress_collision_in (@proof_pre sha256 pf1 pid m1 ++ @proof_pre sha256 pf2 pid m2).
Proof. exact c59_one_message. Qed.
Print Assumptions C59_one_message.
Example C59_one_message_case : valid_proof pf0 /\
  @convolve sha256 Debug pf0 p1 m1 = @convolve sha256 Release pf0 p1 m1 /\ exists c, @convolve sha256 Debug pf0 p1 m1 = Ret (Ok c).
Proof. exact c59_one_message_case. Qed.

Theorem C60_one_proof : forall (H : Hasher) md1 md2 pf1 pf2 pid m1 m2 c
  (valid1 : valid_proof pf1) (valid2 : valid_proof pf2)
  (conv1 : convolve md1 pf1 pid m1 = Ret (Ok c)) (conv2 : convolve md2 pf2 pid m2 = Ret (Ok c)),
  (pf1 = pf2 /\ m1 = m2) \/ collision_in (proof_pre pf1 pid m1 ++ proof_pre pf2 pid m2).
Proof. exact c60_one_proof. Qed.
Print Assumptions C60_one_proof.
Example C60_one_proof_case : valid_proof pf1 /\ m1 <> m2 /\
  @convolve flat Debug pf1 p1 m1 = Ret (Ok cflat) /\ @convolve flat Release pf1 p1 m2 = Ret (Ok cflat) /\
  @convolve toy Debug pf1 p1 m1 = Ret (Ok c0).
Proof. exact c60_one_proof_case. Qed.

Theorem C60_vouches : forall (H : Hasher) md md' pf pid msg src rng t c
  (validp : valid_proof pf) (valid : valid_source src) (made : try_commit src rng = Ret (Ok t))
  (conv : convolve md pf pid msg = Ret (Ok c)) (tree_id : tree_commit_id md' t = Ret c),
  (In (pid, msg) (ms_messages src) /\ to_merkle_proof md (block_of_tree t) pid = Ret (Ok pf)) \/
  collision_in (proof_pre pf pid msg ++ tree_pre t).
Proof. exact c60_vouches. Qed.
Print Assumptions C60_vouches.
Example C60_vouches_case : valid_proof pf1 /\ valid_source src0 /\ try_commit src0 None = Ret (Ok t0) /\
  @convolve toy Debug pf1 p1 m1 = Ret (Ok c0) /\ @tree_commit_id toy Debug t0 = Ret c0 /\
  In (p1, m1) (ms_messages src0) /\ @to_merkle_proof toy Debug (@block_of_tree toy t0) p1 = Ret (Ok pf1).
Proof. exact c60_vouches_case. Qed.

Theorem C61_maximal : forall (H : Hasher) md b1 b2 t1 t2 c
  (wf1 : block_tree b1 t1) (wf2 : block_tree b2 t2) (max1 : pmaximal t1) (max2 : pmaximal t2)
  (id1 : block_commit_id md b1 = Ret c) (id2 : block_commit_id md b2 = Ret c)
  (same : forall x, In x (pleaves_at (mb_depth b1) 0 0 t1) <-> In x (pleaves_at (mb_depth b2) 0 0 t2)),
  (mb_method b1 = mb_method b2 /\ mb_depth b1 = mb_depth b2 /\ mb_cofactor b1 = mb_cofactor b2 /\
   mb_cross_section b1 = mb_cross_section b2) \/
  collision_in (pcommit_pre (mb_depth b1) (mb_cofactor b1) t1 ++ pcommit_pre (mb_depth b2) (mb_cofactor b2) t2).
Proof. exact c61_maximal. Qed.
Print Assumptions C61_maximal.
Example C61_maximal_case : block_tree b1 pt1 /\ pmaximal pt1 /\ @block_commit_id toy Debug b1 = Ret c0 /\
  ~ pmaximal (PBr (PBr (PConc e0) (PLeaf p1 m1)) (PBr (PConc h2) (PConc h2))).
Proof. exact c61_maximal_case. Qed.

Theorem C61_conceal : forall (H : Hasher) md b1 b2 t1 t2 c ids b1' n1 b2' n2
  (wf1 : block_tree b1 t1) (wf2 : block_tree b2 t2)
  (placed1 : well_placed (mb_depth b1) (mb_cofactor b1) t1) (placed2 : well_placed (mb_depth b2) (mb_cofactor b2) t2)
  (id1 : block_commit_id md b1 = Ret c) (id2 : block_commit_id md b2 = Ret c)
  (done1 : conceal_except md b1 ids = Ret (b1', Ok n1)) (done2 : conceal_except md b2 ids = Ret (b2', Ok n2)),
  b1' = b2' \/
  collision_in (pcommit_pre (mb_depth b1) (mb_cofactor b1) t1 ++ pcommit_pre (mb_depth b2) (mb_cofactor b2) t2).
Proof. exact c61_conceal. Qed.
Print Assumptions C61_conceal.
Example C61_conceal_case : block_tree b0 pt0 /\ block_tree b12 pt12 /\
  well_placed (mb_depth b0) (mb_cofactor b0) pt0 /\ well_placed (mb_depth b12) (mb_cofactor b12) pt12 /\
  @block_commit_id toy Debug b0 = Ret c0 /\ @block_commit_id toy Debug b12 = Ret c0 /\
  @conceal_except toy Debug b0 [p1] = Ret (b1, Ok 3%N) /\ @conceal_except toy Debug b12 [p1] = Ret (b1, Ok 2%N).
Proof. exact c61_conceal_case. Qed.

Theorem C62_full : forall (H : Hasher) md method min_depth msgs s1 s2 rng1 rng2 t1 t2
  (valid1 : valid_source (MultiSource method min_depth msgs s1)) (valid2 : valid_source (MultiSource method min_depth msgs s2))
  (made1 : try_commit (MultiSource method min_depth msgs s1) rng1 = Ret (Ok t1))
  (made2 : try_commit (MultiSource method min_depth msgs s2) rng2 = Ret (Ok t2))
  (full : (N.of_nat (length msgs) = 2 ^ N.of_nat (mt_depth t1))%N),
  tree_commit_id md t1 = tree_commit_id md t2.
Proof. exact c62_full. Qed.
Print Assumptions C62_full.
Example C62_full_case : valid_source (srcf 7) /\ valid_source (srcf 8) /\
  try_commit (srcf 7) None = Ret (Ok (tf 7)) /\ try_commit (srcf 8) None = Ret (Ok (tf 8)) /\
  N.of_nat (length (ms_messages (srcf 7))) = (2 ^ N.of_nat (mt_depth (tf 7)))%N /\
  @tree_commit_id toy Debug (tf 7) = @tree_commit_id toy Debug (tf 8).
Proof. exact c62_full_case. Qed.

Theorem C62_blinded : forall (H : Hasher) md method min_depth msgs e1 e2 rng1 rng2 t1 t2 c
  (valid1 : valid_source (MultiSource method min_depth msgs (Some e1)))
  (valid2 : valid_source (MultiSource method min_depth msgs (Some e2)))
  (made1 : try_commit (MultiSource method min_depth msgs (Some e1)) rng1 = Ret (Ok t1))
  (made2 : try_commit (MultiSource method min_depth msgs (Some e2)) rng2 = Ret (Ok t2))
  (free : (N.of_nat (length msgs) < 2 ^ N.of_nat (mt_depth t1))%N)
  (id1 : tree_commit_id md t1 = Ret c) (id2 : tree_commit_id md t2 = Ret c),
  e1 = e2 \/ collision_in (tree_pre t1 ++ tree_pre t2).
Proof. exact c62_blinded. Qed.
Print Assumptions C62_blinded.
Example C62_blinded_case : valid_source src0 /\ valid_source srcb /\
  try_commit src0 None = Ret (Ok t0) /\ try_commit srcb None = Ret (Ok tb) /\
  (N.of_nat (length (ms_messages src0)) < 2 ^ N.of_nat (mt_depth t0))%N /\
  @tree_commit_id toy Debug t0 = Ret c0 /\ @tree_commit_id toy Debug tb <> Ret c0 /\
  @tree_commit_id flat Debug t0 = Ret cflat /\ @tree_commit_id flat Debug tb = Ret cflat.
Proof. exact c62_blinded_case. Qed.

Theorem C62_single : forall (H : Hasher) md method pid msg entropy rng e
  (entropy_known : match entropy with Some x => Some x | None => rng end = Some e),
  exists t, try_commit (MultiSource method 0 [(pid, msg)] entropy) rng = Ret (Ok t) /\
    mt_depth t = 0 /\ mt_cofactor t = 0%N /\ mt_entropy t = e /\
    tree_commit_id md t = Ret (HASH (s_commit 0 0 (HASH (s_leaf pid msg)))).
Proof. exact c62_single. Qed.
Print Assumptions C62_single.
Example C62_single_case : exists t, try_commit (MultiSource Sha256t 0 [(p1, m1)] None) (Some 9%N) = Ret (Ok t) /\ mt_depth t = 0.
Proof. exact c62_single_case. Qed.

Theorem C63_complete : forall (H : Hasher) Seal Pub Cli PubId PubErr CliErr
    (P : seal_protocol Seal bytes32 Pub Cli bytes32 PubId PubErr CliErr)
    md (proof_of : Cli -> merkle_proof) src rng t c pid msg pf pub cli seals
  (valid : valid_source src) (made : try_commit src rng = Ret (Ok t)) (tree_id : tree_commit_id md t = Ret c)
  (client : forall w x y, convolve md (proof_of w) pid x = Ret (Ok y) -> sl_convolve P w x = Ok y)
  (anchored : sl_verify_commitment P pub c = Ok tt)
  (message : In (pid, msg) (ms_messages src))
  (extracted : to_merkle_proof md (block_of_tree t) pid = Ret (Ok pf)) (held : proof_of cli = pf)
  (included : forall s, In s seals -> sl_is_included P s msg (pub, cli) = true),
  verify_seals_closing P (witness_new pub cli) seals msg = Ok tt.
Proof. exact c63_complete. Qed.
Print Assumptions C63_complete.
Example C63_complete_case : valid_source src0 /\ try_commit src0 None = Ret (Ok t0) /\ @tree_commit_id toy Debug t0 = Ret c0 /\
  (forall w x y, @convolve toy Debug w p1 x = Ret (Ok y) -> sl_convolve mpc_protocol w x = Ok y) /\
  sl_verify_commitment mpc_protocol ([1; 2], c0) c0 = Ok tt /\ In (p1, m1) (ms_messages src0) /\
  @to_merkle_proof toy Debug (@block_of_tree toy t0) p1 = Ret (Ok pf1) /\
  verify_seals_closing mpc_protocol (witness_new ([1; 2], c0) pf1) [1; 2] m1 = Ok tt.
Proof. exact c63_complete_case. Qed.

Theorem C63_sound : forall (H : Hasher) Seal Pub Cli PubId PubErr CliErr
    (P : seal_protocol Seal bytes32 Pub Cli bytes32 PubId PubErr CliErr)
    md md' (proof_of : Cli -> merkle_proof) src rng t c pid msg pub cli seals u
  (valid : valid_source src) (made : try_commit src rng = Ret (Ok t)) (tree_id : tree_commit_id md' t = Ret c)
  (client : forall w x y, sl_convolve P w x = Ok y -> convolve md (proof_of w) pid x = Ret (Ok y))
  (anchored : forall x v, sl_verify_commitment P pub x = Ok v -> x = c)
  (validp : valid_proof (proof_of cli))
  (closed : verify_seals_closing P (witness_new pub cli) seals msg = Ok u),
  (In (pid, msg) (ms_messages src) /\ to_merkle_proof md (block_of_tree t) pid = Ret (Ok (proof_of cli)) /\
   forall s, In s seals -> sl_is_included P s msg (pub, cli) = true) \/
  collision_in (proof_pre (proof_of cli) pid msg ++ tree_pre t).
Proof. exact c63_sound. Qed.
Print Assumptions C63_sound.
Example C63_sound_case : (forall w x y, sl_convolve mpc_protocol w x = Ok y -> @convolve toy Debug w p1 x = Ret (Ok y)) /\
  (forall x v, sl_verify_commitment mpc_protocol ([1; 2], c0) x = Ok v -> x = c0) /\ valid_proof pf1 /\
  verify_seals_closing mpc_protocol (witness_new ([1; 2], c0) pf1) [1; 2] m1 = Ok tt /\
  verify_seals_closing mpc_protocol (witness_new ([1; 2], c0) pf1) [1; 3] m1 = Err (SeNotIncluded 3 [1; 2]).
Proof. exact c63_sound_case. Qed.

Theorem C64_proof : forall pf, length (enc c_merkle_proof pf) = 8 + 32 * length (mp_path pf).
Proof. exact c64_proof. Qed.
Print Assumptions C64_proof.
Example C64_proof_case : length (enc c_merkle_proof pf1) = 72 /\ length (mp_path pf1) = 2.
Proof. exact c64_proof_case. Qed.

Theorem C64_block : forall b, length (enc c_merkle_block b) =
  (match mb_entropy b with None => 9 | Some _ => 17 end) +
  34 * length (mb_cross_section b) + 31 * length (known_leaves (mb_cross_section b)).
Proof. exact c64_block. Qed.
Print Assumptions C64_block.
Example C64_block_case : length (enc c_merkle_block b0) = 246 /\ length (enc c_merkle_block b1) = 142.
Proof. exact c64_block_case. Qed.

Theorem C64_tree : forall t, length (enc c_merkle_tree t) = 18 + 64 * length (mt_messages t) + 68 * length (mt_map t).
Proof. exact c64_tree. Qed.
Print Assumptions C64_tree.
Example C64_tree_case : length (enc c_merkle_tree t0) = 414.
Proof. exact c64_tree_case. Qed.

Theorem C64_conceal : forall (H : Hasher) md b ids b' n
  (wf : wf_block b) (done : conceal_except md b ids = Ret (b', Ok n)),
  length (enc c_merkle_block b') + 31 * N.to_nat n <= length (enc c_merkle_block b).
Proof. exact c64_conceal. Qed.
Print Assumptions C64_conceal.
Example C64_conceal_case : wf_block b0 /\ @conceal_except toy Debug b0 [p1] = Ret (b1, Ok 3%N) /\
  length (enc c_merkle_block b0) = 246 /\ length (enc c_merkle_block b1) = 142.
Proof. exact c64_conceal_case. Qed.

Theorem C64_extracted : forall (H : Hasher) md src rng t pid pf
  (valid : valid_source src) (made : try_commit src rng = Ret (Ok t))
  (extracted : to_merkle_proof md (block_of_tree t) pid = Ret (Ok pf)),
  length (enc c_merkle_proof pf) = 8 + 32 * mt_depth t /\ length (enc c_merkle_proof pf) <= 1000.
Proof. exact c64_extracted. Qed.
Print Assumptions C64_extracted.
Example C64_extracted_case : valid_source src0 /\ try_commit src0 None = Ret (Ok t0) /\
  @to_merkle_proof toy Debug (@block_of_tree toy t0) p1 = Ret (Ok pf1) /\ length (enc c_merkle_proof pf1) = 72.
Proof. exact c64_extracted_case. Qed.
