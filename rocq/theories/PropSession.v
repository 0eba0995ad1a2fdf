(** Sessions with untrusted parties, placeholder values: C78-C79 *)
From Coq Require Import Permutation Sorting.Sorted.
From Verif Require Import Base BaseFacts OrdMap Strict Digest Merkle MpcAtoms MpcTree MpcBlock.
From Verif Require Import Engine EngineIo Schemes Seals Api Vesper Sha256 Ripemd Dumb Text Loops Orders Suites MpcTests Serde Steps Work Costs.
From Verif Require Import SpecHash SpecTree SpecMerkle SpecFull SpecValid SpecCommit SpecDerived SpecBlock.
From Verif Require Import SpecBuoy SpecStrings SpecCodec SpecLayout SpecEngine SpecMisc SpecSha SpecDerive SpecLocal SpecSession SpecRipemd SpecEnd Stl SpecStl SpecQuery SpecCount SpecText SpecOrders SpecFind SpecForm SpecGame SpecHideGame SpecViewGame SpecBlockGame SpecSuites SpecExtend SpecCompress SpecTests SpecSerde SpecTalk SpecMany SpecDepth SpecTarget SpecIdGame SpecLate SpecTransfer SpecNest SpecScript SpecSalt SpecOpen SpecChoice SpecPick SpecOffer SpecPlay SpecSeek SpecShare SpecSettled SpecResting SpecDraw SpecFuse SpecFeed.
From Verif Require Import TheoremsMpc TheoremsBlock TheoremsMerkle TheoremsMisc TheoremsMore TheoremsExt TheoremsAdv TheoremsLocal TheoremsSession TheoremsHash TheoremsHide TheoremsEnd TheoremsStl TheoremsQuery TheoremsCount TheoremsText TheoremsFrame TheoremsLoops TheoremsTight TheoremsOrders TheoremsFind TheoremsForm TheoremsGame TheoremsHideGame TheoremsViewGame TheoremsBlockGame TheoremsSuites TheoremsExtend TheoremsCompress TheoremsTests TheoremsSerde TheoremsTalk TheoremsMany TheoremsDepth TheoremsWork TheoremsTarget TheoremsAttack TheoremsIdGame TheoremsLate TheoremsTransfer TheoremsNest TheoremsCosts TheoremsScript TheoremsSalt TheoremsOpen TheoremsChoice TheoremsPick TheoremsOffer TheoremsPlay TheoremsSeek TheoremsShare TheoremsSettled TheoremsResting TheoremsDraw TheoremsFuse TheoremsFeed.
From Verif Require Import CasesMpc CasesMisc CasesMore CasesExt CasesAdv CasesLocal CasesSession CasesHash CasesHide CasesEnd CasesStl CasesQuery CasesCount CasesText CasesFrame CasesLoops CasesTight CasesOrders CasesFind CasesForm CasesGame CasesHideGame CasesViewGame CasesBlockGame CasesSuites CasesExtend CasesCompress CasesTests CasesSerde CasesTalk CasesMany CasesDepth CasesWork CasesTarget CasesAttack CasesIdGame CasesLate CasesTransfer CasesNest CasesCosts CasesScript CasesSalt CasesOpen CasesChoice CasesPick CasesOffer CasesPlay CasesSeek CasesShare CasesSettled CasesResting CasesDraw CasesFuse CasesFeed.
Local Open Scope nat_scope.

Theorem C78_truth : forall (H : Hasher) md md' src rng t c L b
  (valid : valid_source src) (made : try_commit src rng = Ret (Ok t)) (tree_id : tree_commit_id md' t = Ret c)
  (held : session md c L b),
  (block_commit_id md b = Ret c /\ mb_method b = ms_method src /\ mb_depth b = mt_depth t /\ mb_cofactor b = mt_cofactor t /\
   (forall p m, In (p, m) (known_leaves (mb_cross_section b)) -> In (p, m) (ms_messages src)) /\
   exists pt, block_tree b pt /\ well_placed (mt_depth t) (mt_cofactor t) pt /\
     pview (2 ^ N.of_nat (mt_depth t)) 0 pt (tree_full t)) \/
  collision_in (L ++ tree_pre t).
Proof. exact c78_truth. Qed.
Print Assumptions C78_truth.
Example C78_truth_case : valid_source src0 /\ try_commit src0 None = Ret (Ok t0) /\ @tree_commit_id toy Debug t0 = Ret c0 /\
  @session toy Debug c0 (@proof_pre toy pf1 p1 m1 ++ @pcommit_pre toy 2 0 pt3) b13 /\
  known_leaves (mb_cross_section b13) = [(p1, m1); (p3, m1)].
Proof. exact c78_truth_case. Qed.

Theorem C78_operations : forall (H : Hasher) md md' src rng t c L L' b b'
  (valid : valid_source src) (made : try_commit src rng = Ret (Ok t)) (tree_id : tree_commit_id md' t = Ret c)
  (held : session md c L b) (held' : session md c L' b'),
  ((forall ids, exists b2 r, conceal_except md b ids = Ret (b2, r)) /\
   (exists b2 n, merge_reveal md b b' = Ret (b2, Ok n) /\
      forall p m, In (p, m) (known_leaves (mb_cross_section b2)) <->
        In (p, m) (known_leaves (mb_cross_section b)) \/ In (p, m) (known_leaves (mb_cross_section b'))) /\
   (forall p m, In (p, m) (known_leaves (mb_cross_section b)) ->
      exists pf, to_merkle_proof md b p = Ret (Ok pf) /\ to_merkle_proof md (block_of_tree t) p = Ret (Ok pf) /\
        convolve md pf p m = Ret (Ok c)) /\
   (forall p, ~ In p (map fst (known_leaves (mb_cross_section b))) -> to_merkle_proof md b p = Ret (Err p))) \/
  collision_in (L ++ L' ++ tree_pre t).
Proof. exact c78_operations. Qed.
Print Assumptions C78_operations.
Example C78_operations_case : valid_source src0 /\ try_commit src0 None = Ret (Ok t0) /\ @tree_commit_id toy Debug t0 = Ret c0 /\
  @session toy Debug c0 (@proof_pre toy pf1 p1 m1) bx1 /\
  (exists e, @session toy Debug c0 ((@proof_pre toy pf1 p1 m1 ++ @pcommit_pre toy 2 0 pt3) ++ @proof_pre toy pf1 p1 m2) b13 /\
     @merge_reveal_path toy Debug b13 pf1 p1 m2 = Ret (b13, Err e)) /\
  @merge_reveal toy Debug bx1 b13 = Ret (b13, Ok 4%N).
Proof. exact c78_operations_case. Qed.

Theorem C78_disclosure : forall (H : Hasher) md md' src rng t c L b ids b' n
  (valid : valid_source src) (made : try_commit src rng = Ret (Ok t)) (tree_id : tree_commit_id md' t = Ret c)
  (held : session md c L b) (done : conceal_except md b ids = Ret (b', Ok n)),
  (exists n', conceal_except md (block_of_tree t) ids = Ret (b', Ok n')) \/ collision_in (L ++ tree_pre t).
Proof. exact c78_disclosure. Qed.
Print Assumptions C78_disclosure.
Example C78_disclosure_case : valid_source src0 /\ try_commit src0 None = Ret (Ok t0) /\ @tree_commit_id toy Debug t0 = Ret c0 /\
  @session toy Debug c0 (@proof_pre toy pf1 p1 m1 ++ @pcommit_pre toy 2 0 pt3) b13 /\
  exists n, @conceal_except toy Debug b13 [p1] = Ret (b1, Ok n) /\ @conceal_except toy Debug b0 [p1] = Ret (b1, Ok 3%N) /\ n <> 3%N.
Proof. exact c78_disclosure_case. Qed.

Theorem C78_honest : forall (H : Hasher) md md' src rng t c b
  (valid : valid_source src) (rng_u64 : match rng with Some e => (e < 2 ^ 64)%N | None => True end)
  (made : try_commit src rng = Ret (Ok t)) (tree_id : tree_commit_id md' t = Ret c) (from_tree : derived md t b),
  exists L, session md c L b /\ incl L (tree_pre t).
Proof. exact c78_honest. Qed.
Print Assumptions C78_honest.
Example C78_honest_case : valid_source src0 /\ try_commit src0 None = Ret (Ok t0) /\ @tree_commit_id toy Debug t0 = Ret c0 /\
  @derived toy Debug t0 b1.
Proof. exact c78_honest_case. Qed.

Theorem C79_dumb : forall (H : Hasher) md,
  (valid_leaf dumb_leaf /\ valid_node dumb_merkle_node /\ valid_concealed dumb_concealed /\ valid_block dumb_block /\
   valid_tree dumb_tree /\ valid_proof default_proof) /\
  block_tree dumb_block (PConc (b32_fill x00)) /\
  block_commit_id md dumb_block = Ret (HASH (s_commit 1 0 (b32_fill x00))) /\
  tree_commit_id md dumb_tree = Ret (HASH (s_commit 0 0 (HASH (s_entropy 0 0)))) /\
  block_commit_id md (block_of_tree dumb_tree) = tree_commit_id md dumb_tree.
Proof. exact c79_dumb. Qed.
Print Assumptions C79_dumb.
Example C79_dumb_case : enc c_merkle_block dumb_block = [x00; x01; x00; x00; x01; x00; x00; x00; x00; x00] ++ b32 zero32 ++ x01 :: le 8 8845 /\
  dec c_merkle_block (enc c_merkle_block dumb_block) = Some (dumb_block, []) /\
  dec c_merkle_tree (enc c_merkle_tree dumb_tree) = Some (dumb_tree, []) /\
  @conceal_except toy Debug dumb_block [] = Ret (MBlock Sha256t 1 0 [ConcealedNode 0 zero32] None, Ok 0%N).
Proof. exact c79_dumb_case. Qed.

Theorem C79_default_proof : forall (H : Hasher) md method pid msg entropy rng t
  (valid : valid_source (MultiSource method 0 [(pid, msg)] entropy))
  (made : try_commit (MultiSource method 0 [(pid, msg)] entropy) rng = Ret (Ok t)),
  exists c, tree_commit_id md t = Ret c /\ convolve md default_proof pid msg = Ret (Ok c) /\
    to_merkle_proof md (block_of_tree t) pid = Ret (Ok default_proof).
Proof. exact c79_default_proof. Qed.
Print Assumptions C79_default_proof.
Example C79_default_proof_case : valid_source (MultiSource Sha256t 0 [(p1, m1)] (Some 7%N)) /\
  exists t, try_commit (MultiSource Sha256t 0 [(p1, m1)] (Some 7%N)) None = Ret (Ok t).
Proof. exact c79_default_proof_case. Qed.

Theorem C79_fields : forall (H : Hasher) A md tag idty (fields_of : A -> list field) dumb v l e
  (uniform : Forall2 (fun f g => forall s, step_for f s -> step_for g s) (fields_of dumb) (fields_of v))
  (published : commitment_layout md (CommitEncode tag idty (fun md v e => run md (fields_of v) e)) dumb = Ret l)
  (committed : commit md (CommitEncode tag idty (fun md v e => run md (fields_of v) e)) v = Ret e),
  cl_tag l = tag /\ has_fqn idty (cl_idty l) /\ into_layout e = cl_fields l.
Proof. exact c79_fields. Qed.
Print Assumptions C79_fields.
Example C79_fields_case :
  Forall2 (fun f g => forall s, step_for f s -> step_for g s) (pair_fields (0%N, zero32)) (pair_fields (5%N, p1)) /\
  let I := @CommitEncode _ (str "tag") (SType "Test" (Some "Id"%string)) (fun md v e => @run toy md (pair_fields v) e) in
  exists l e, @commitment_layout toy _ Debug I (0%N, zero32) = Ret l /\ @commit toy _ Debug I (5%N, p1) = Ret e /\ length (cl_fields l) = 2.
Proof. exact c79_fields_case. Qed.

Theorem C79_derived : forall (H : Hasher) md tag idty,
  (forall A (T : typed A) dumb v l e, commitment_layout md (derive_strict tag idty T) dumb = Ret l ->
     commit md (derive_strict tag idty T) v = Ret e -> into_layout e = cl_fields l) /\
  (forall A B (T : typed B) (inner : A -> B) dumb v l e, commitment_layout md (derive_transparent tag idty T inner) dumb = Ret l ->
     commit md (derive_transparent tag idty T inner) v = Ret e -> into_layout e = cl_fields l) /\
  (forall A B C (c1 : mode -> A -> outcome B) t2 (c2 : mode -> B -> outcome C) CT dumb v l e,
     commitment_layout md (derive_conceal tag idty c1 t2 c2 CT) dumb = Ret l ->
     commit md (derive_conceal tag idty c1 t2 c2 CT) v = Ret e -> into_layout e = cl_fields l) /\
  (forall A t (leaves : A -> list bytes32) dumb v l e, commitment_layout md (derive_merklize tag idty t leaves) dumb = Ret l ->
     commit md (derive_merklize tag idty t leaves) v = Ret e -> into_layout e = cl_fields l).
Proof. exact c79_derived. Qed.
Print Assumptions C79_derived.
Example C79_derived_case : exists l e, @commitment_layout toy _ Debug (@ce_block toy) dumb_block = Ret l /\
  @commit toy _ Debug (@ce_block toy) b1 = Ret e /\ cl_fields l = [StConcealed (Fqn "CommitVerify" "MerkleConcealed")].
Proof. exact c79_derived_case. Qed.

Theorem C79_option_refuted : forall (H : Hasher) md tag A (T : typed A) v f
  (named : has_fqn (ty T) f) (plain : not_reserved_type (ty T)) (zero : enc (ty_codec T) v = [x00]),
  exists e1 e2, run md [FOption T None] (engine_new tag) = Ret e1 /\ run md [FSerialized T v] (engine_new tag) = Ret e2 /\
    into_layout e1 = into_layout e2 /\ digest_finish (engine_finish e1) = digest_finish (engine_finish e2).
Proof. exact c79_option_refuted. Qed.
Print Assumptions C79_option_refuted.
Example C79_option_refuted_case : has_fqn (ty u8t) (Fqn (st_lib (ty u8t)) "U8") /\ not_reserved_type (ty u8t) /\
  enc (ty_codec u8t) 0%N = [x00].
Proof. exact c79_option_refuted_case. Qed.

Theorem C79_varying_refuted : exists (fields_of : bool -> list field), forall (H : Hasher) md tag idty f, has_fqn idty f ->
  let I := CommitEncode tag idty (fun md v e => run md (fields_of v) e) in
  exists l e, commitment_layout md I false = Ret l /\ commit md I true = Ret e /\ into_layout e <> cl_fields l.
Proof. exact c79_varying_refuted. Qed.
Print Assumptions C79_varying_refuted.

Theorem C79_values :
  enc c_leaf dumb_leaf = x11 :: repeat x00 12 /\
  enc c_merkle_node dumb_merkle_node = repeat x00 98 /\
  enc c_tree_node dumb_tree_node = repeat x00 34 /\
  enc c_merkle_concealed dumb_concealed = repeat x00 35 /\
  enc c_merkle_block dumb_block = [x00; x01; x00; x00; x01; x00; x00; x00] ++ repeat x00 34 ++ [x01; x8d; x22] ++ repeat x00 6 /\
  enc c_merkle_tree dumb_tree = repeat x00 18 /\
  enc c_merkle_proof default_proof = repeat x00 8 /\
  b32 zero32 = repeat x00 32.
Proof. exact c79_values. Qed.
Print Assumptions C79_values.
Example C79_values_case : dec c_merkle_block (enc c_merkle_block dumb_block ++ [x07]) = Some (MBlock Sha256t 1 0 [ConcealedNode 0 zero32] (Some 8845%N), [x07]) /\
  dec c_leaf (x11 :: repeat x00 12) = Some (dumb_leaf, []).
Proof. exact c79_values_case. Qed.
