(** MPC trees and proofs: C01-C07, C27, C29-C32 *)
From Coq Require Import Permutation Sorting.Sorted.
From Verif Require Import Base BaseFacts OrdMap Strict Digest Merkle MpcAtoms MpcTree MpcBlock.
From Verif Require Import Engine EngineIo Schemes Seals Api Vesper Sha256 Ripemd Dumb Text Loops Orders Suites MpcTests Serde Steps Work Costs.
From Verif Require Import SpecHash SpecTree SpecMerkle SpecFull SpecValid SpecCommit SpecDerived SpecBlock.
From Verif Require Import SpecBuoy SpecStrings SpecCodec SpecLayout SpecEngine SpecMisc SpecSha SpecDerive SpecLocal SpecSession SpecRipemd SpecEnd Stl SpecStl SpecQuery SpecCount SpecText SpecOrders SpecFind SpecForm SpecGame SpecHideGame SpecViewGame SpecBlockGame SpecSuites SpecExtend SpecCompress SpecTests SpecSerde SpecTalk SpecMany SpecDepth SpecTarget SpecIdGame SpecLate SpecTransfer SpecNest SpecScript SpecSalt SpecOpen SpecChoice SpecPick SpecOffer SpecPlay SpecSeek SpecShare SpecSettled SpecResting SpecDraw SpecFuse SpecFeed.
From Verif Require Import TheoremsMpc TheoremsBlock TheoremsMerkle TheoremsMisc TheoremsMore TheoremsExt TheoremsAdv TheoremsLocal TheoremsSession TheoremsHash TheoremsHide TheoremsEnd TheoremsStl TheoremsQuery TheoremsCount TheoremsText TheoremsFrame TheoremsLoops TheoremsTight TheoremsOrders TheoremsFind TheoremsForm TheoremsGame TheoremsHideGame TheoremsViewGame TheoremsBlockGame TheoremsSuites TheoremsExtend TheoremsCompress TheoremsTests TheoremsSerde TheoremsTalk TheoremsMany TheoremsDepth TheoremsWork TheoremsTarget TheoremsAttack TheoremsIdGame TheoremsLate TheoremsTransfer TheoremsNest TheoremsCosts TheoremsScript TheoremsSalt TheoremsOpen TheoremsChoice TheoremsPick TheoremsOffer TheoremsPlay TheoremsSeek TheoremsShare TheoremsSettled TheoremsResting TheoremsDraw TheoremsFuse TheoremsFeed.
From Verif Require Import CasesMpc CasesMisc CasesMore CasesExt CasesAdv CasesLocal CasesSession CasesHash CasesHide CasesEnd CasesStl CasesQuery CasesCount CasesText CasesFrame CasesLoops CasesTight CasesOrders CasesFind CasesForm CasesGame CasesHideGame CasesViewGame CasesBlockGame CasesSuites CasesExtend CasesCompress CasesTests CasesSerde CasesTalk CasesMany CasesDepth CasesWork CasesTarget CasesAttack CasesIdGame CasesLate CasesTransfer CasesNest CasesCosts CasesScript CasesSalt CasesOpen CasesChoice CasesPick CasesOffer CasesPlay CasesSeek CasesShare CasesSettled CasesResting CasesDraw CasesFuse CasesFeed.
Local Open Scope nat_scope.

Theorem C01_one_message : forall (H : Hasher) md1 md2 pf1 pf2 pid m1 m2 c
  (valid1 : valid_proof pf1) (valid2 : valid_proof pf2)
  (conv1 : convolve md1 pf1 pid m1 = Ret (Ok c)) (conv2 : convolve md2 pf2 pid m2 = Ret (Ok c)),
  m1 = m2 \/ collision_in (proof_pre pf1 pid m1 ++ proof_pre pf2 pid m2).
Proof. exact c01_one_message. Qed.
Print Assumptions C01_one_message.
Example C01_one_message_case :
  valid_proof pf1 /\ m1 <> m2 /\
  @convolve flat Debug pf1 p1 m1 = Ret (Ok cflat) /\ @convolve flat Release pf1 p1 m2 = Ret (Ok cflat) /\
  @convolve toy Debug pf1 p1 m1 = Ret (Ok c0) /\ @convolve toy Debug pf1 p1 m2 <> Ret (Ok c0).
Proof. exact c01_one_message_case. Qed.

Theorem C02_every_message_has_proof : forall (H : Hasher) md src rng t pid msg
  (valid : valid_source src) (made : try_commit src rng = Ret (Ok t))
  (message : In (pid, msg) (ms_messages src)),
  exists pf c, to_merkle_proof md (block_of_tree t) pid = Ret (Ok pf) /\
    tree_commit_id md t = Ret c /\ convolve md pf pid msg = Ret (Ok c) /\ valid_proof pf.
Proof. exact c02_every_message_has_proof. Qed.
Print Assumptions C02_every_message_has_proof.
Example C02_every_message_has_proof_case :
  valid_source src0 /\ try_commit src0 None = Ret (Ok t0) /\ In (p1, m1) (ms_messages src0) /\
  @to_merkle_proof toy Debug (@block_of_tree toy t0) p1 = Ret (Ok pf1) /\ mp_path pf1 = [h23; e0] /\ mp_pos pf1 = 1%N.
Proof. exact c02_every_message_has_proof_case. Qed.

Theorem C03_convolve_total : forall (H : Hasher) md pf pid msg
  (short : length (mp_path pf) <= 31),
  let D := length (mp_path pf) in
  convolve md pf pid msg =
  if N.eqb (s_pos pid (mp_cofactor pf) D) (mp_pos pf)
  then Ret (Ok (pcommit D (mp_cofactor pf) (path_tree (mp_path pf) (mp_pos pf) pid msg)))
  else Ret (Err (InvalidProof pid (s_pos pid (mp_cofactor pf) D) (mp_pos pf) (2 ^ N.of_nat D)%N)).
Proof. exact c03_convolve_total. Qed.
Print Assumptions C03_convolve_total.
Example C03_convolve_total_case :
  length (mp_path pf1) = 2 /\ @convolve toy Debug pf1 p1 m1 = Ret (Ok c0) /\
  @convolve toy Debug pf1 p2 m1 = Ret (Err (InvalidProof p2 2 1 4)).
Proof. exact c03_convolve_total_case. Qed.

Theorem C03_convolve_total_refuted : exists pf, valid_proof pf /\
  forall (H : Hasher) md pid msg, convolve md pf pid msg = Panic PAssert.
Proof. exact c03_convolve_total_refuted. Qed.
Print Assumptions C03_convolve_total_refuted.

Theorem C04_placement : forall src rng t
  (valid : valid_source src) (made : try_commit src rng = Ret (Ok t)),
  ms_min_depth src <= mt_depth t <= 31 /\
  mt_method t = ms_method src /\ mt_messages t = ms_messages src /\
  match ms_static_entropy src with Some e => mt_entropy t = e | None => rng = Some (mt_entropy t) end /\
  om_sorted N.ltb (mt_map t) = true /\
  (forall q p m, In (q, (p, m)) (mt_map t) <->
     In (p, m) (ms_messages src) /\ q = s_pos p (mt_cofactor t) (mt_depth t)) /\
  NoDup (map (fun e => s_pos (fst e) (mt_cofactor t) (mt_depth t)) (ms_messages src)) /\
  (forall e, In e (ms_messages src) ->
     (s_pos (fst e) (mt_cofactor t) (mt_depth t) < 2 ^ N.of_nat (mt_depth t))%N).
Proof. exact c04_placement. Qed.
Print Assumptions C04_placement.
Example C04_placement_case :
  valid_source src0 /\ try_commit src0 None = Ret (Ok t0) /\
  valid_source src1 /\ try_commit src1 None = Ret (Ok t1) /\
  valid_source srcr /\ try_commit srcr (Some 7%N) = Ret (Ok t0).
Proof. exact c04_placement_case. Qed.

Theorem C05_first_fit : forall src rng
  (valid : valid_source src) (entropy : ms_static_entropy src <> None \/ rng <> None),
  let n := length (ms_messages src) in
  let works d c := allowed (ms_min_depth src) n d c /\ fits (ms_messages src) d c in
  (ms_min_depth src = 0 /\ n = 0 /\ try_commit src rng = Ret (Err Empty)) \/
  (~ (ms_min_depth src = 0 /\ n = 0) /\ (forall d c, ~ works d c) /\
     try_commit src rng = Ret (Err (CantFitInMaxSlots n))) \/
  (~ (ms_min_depth src = 0 /\ n = 0) /\
   exists t, try_commit src rng = Ret (Ok t) /\ works (mt_depth t) (mt_cofactor t) /\
     forall d c, works d c -> not_after (mt_depth t, mt_cofactor t) (d, c)).
Proof. exact c05_first_fit. Qed.
Print Assumptions C05_first_fit.
Example C05_first_fit_case :
  try_commit (MultiSource Sha256t 0 [] (Some 7%N)) None = Ret (Err Empty) /\
  valid_source src31 /\ try_commit src31 None = Ret (Err (CantFitInMaxSlots 2)) /\
  valid_source src1 /\ try_commit src1 None = Ret (Ok t1) /\ mt_depth t1 = 2 /\ mt_cofactor t1 = 1%N.
Proof. exact c05_first_fit_case. Qed.

Theorem C06_verify_static : forall (H : Hasher) src rng rng' t'
  (valid : valid_source src) (static : ms_static_entropy src <> None),
  match try_commit src rng with
  | Ret (Ok t) => (t = t' -> tv_verify (tv_merkle_tree rng') t' src = Ret (Ok tt)) /\
                  (t <> t' -> tv_verify (tv_merkle_tree rng') t' src = Ret (Err InvalidCommitment))
  | Ret (Err _) => tv_verify (tv_merkle_tree rng') t' src = Ret (Err InvalidMessage)
  | Panic _ => False
  end.
Proof. exact c06_verify_static. Qed.
Print Assumptions C06_verify_static.
Example C06_verify_static_case :
  valid_source src0 /\ ms_static_entropy src0 <> None /\ try_commit src0 None = Ret (Ok t0) /\
  tv_verify (@tv_merkle_tree toy (Some 3%N)) t0 src0 = Ret (Ok tt) /\
  tv_verify (@tv_merkle_tree toy None) t1 src0 = Ret (Err InvalidCommitment) /\
  tv_verify (@tv_merkle_tree toy None) t1 src31 = Ret (Err InvalidMessage).
Proof. exact c06_verify_static_case. Qed.

Theorem C06_verify_rng : forall (H : Hasher) src r r' t
  (valid : valid_source src) (dynamic : ms_static_entropy src = None)
  (made : try_commit src (Some r) = Ret (Ok t)),
  (r' = r -> tv_verify (tv_merkle_tree (Some r')) t src = Ret (Ok tt)) /\
  (r' <> r -> tv_verify (tv_merkle_tree (Some r')) t src = Ret (Err InvalidCommitment)).
Proof. exact c06_verify_rng. Qed.
Print Assumptions C06_verify_rng.
Example C06_verify_rng_case :
  valid_source srcr /\ ms_static_entropy srcr = None /\ try_commit srcr (Some 7%N) = Ret (Ok t0) /\
  tv_verify (@tv_merkle_tree toy (Some 7%N)) t0 srcr = Ret (Ok tt) /\
  tv_verify (@tv_merkle_tree toy (Some 8%N)) t0 srcr = Ret (Err InvalidCommitment).
Proof. exact c06_verify_rng_case. Qed.

Theorem C07_one_commitment : forall (H : Hasher) md src rng t
  (valid : valid_source src) (made : try_commit src rng = Ret (Ok t)),
  exists c root, let concealed := MConcealed (mt_depth t) (mt_cofactor t) root in
    commit_id md ce_tree t = Ret c /\ commit_id md ce_block (block_of_tree t) = Ret c /\
    commit_id md ce_concealed concealed = Ret c /\
    tree_conceal md t = Ret concealed /\ block_conceal md (block_of_tree t) = Ret concealed /\
    mt_root t = Ret root.
Proof. exact c07_one_commitment. Qed.
Print Assumptions C07_one_commitment.
Example C07_one_commitment_case :
  valid_source src0 /\ try_commit src0 None = Ret (Ok t0) /\
  @commit_id toy merkle_tree Debug (@ce_tree toy) t0 = Ret c0.
Proof. exact c07_one_commitment_case. Qed.

Theorem C27_tree_binding : forall (H : Hasher) md src1 rng1 t1 src2 rng2 t2 c
  (valid1 : valid_source src1) (valid2 : valid_source src2)
  (rng1_u64 : match rng1 with Some e => (e < 2 ^ 64)%N | None => True end)
  (rng2_u64 : match rng2 with Some e => (e < 2 ^ 64)%N | None => True end)
  (made1 : try_commit src1 rng1 = Ret (Ok t1)) (made2 : try_commit src2 rng2 = Ret (Ok t2))
  (id1 : tree_commit_id md t1 = Ret c) (id2 : tree_commit_id md t2 = Ret c),
  (mt_depth t1 = mt_depth t2 /\ mt_cofactor t1 = mt_cofactor t2 /\ mt_messages t1 = mt_messages t2 /\
   mt_map t1 = mt_map t2 /\
   ((N.of_nat (length (mt_messages t1)) < 2 ^ N.of_nat (mt_depth t1))%N -> mt_entropy t1 = mt_entropy t2)) \/
  collision_in (tree_pre t1 ++ tree_pre t2).
Proof. exact c27_tree_binding. Qed.
Print Assumptions C27_tree_binding.
Example C27_tree_binding_case :
  valid_source src0 /\ valid_source src0' /\ try_commit src0 None = Ret (Ok t0) /\ try_commit src0' None = Ret (Ok t0') /\
  mt_messages t0 <> mt_messages t0' /\
  @tree_commit_id flat Debug t0 = Ret cflat /\ @tree_commit_id flat Debug t0' = Ret cflat /\
  @tree_commit_id toy Debug t0 <> @tree_commit_id toy Debug t0'.
Proof. exact c27_tree_binding_case. Qed.

Theorem C29_positions : forall pid cofactor depth (u5 : depth <= 31),
  protocol_id_pos pid cofactor depth = (le_val pid mod N.max 1 (2 ^ N.of_nat depth - cofactor))%N /\
  (protocol_id_pos pid cofactor depth < 2 ^ N.of_nat depth)%N.
Proof. exact c29_positions. Qed.
Print Assumptions C29_positions.
Example C29_positions_case : protocol_id_pos p1 1 2 = 2%N /\ protocol_id_pos p5 1 2 = 1%N /\ protocol_id_pos p5 9 2 = 0%N.
Proof. exact c29_positions_case. Qed.

Theorem C30_widths : forall (H : Hasher) md src rng t
  (valid : valid_source src) (made : try_commit src rng = Ret (Ok t)),
  let usable := (2 ^ N.of_nat (mt_depth t) - mt_cofactor t)%N in
  (mt_cofactor t <= 500)%N /\ (mt_cofactor t < 2 ^ N.of_nat (mt_depth t))%N /\
  (N.of_nat (length (ms_messages src)) <= usable)%N /\
  (forall p, (s_pos p (mt_cofactor t) (mt_depth t) < usable)%N) /\
  mt_factored_width md t = Ret usable /\
  (forall b, derived md t b -> mb_factored_width md b = Ret usable) /\
  (forall b pid pf, derived md t b -> to_merkle_proof md b pid = Ret (Ok pf) -> mp_factored_width md pf = Ret usable).
Proof. exact c30_widths. Qed.
Print Assumptions C30_widths.
Example C30_widths_case :
  valid_source src1 /\ try_commit src1 None = Ret (Ok t1) /\ mt_factored_width Debug t1 = Ret 3%N /\
  @derived toy Debug t1 (@block_of_tree toy t1).
Proof. exact c30_widths_case. Qed.

Theorem C30_decoded_refuted :
  (exists t, valid_tree t /\ mt_factored_width Debug t = Panic PArith /\
             mt_factored_width Release t = Ret (2 ^ 32 - 1)%N) /\
  (exists b, valid_block b /\ mb_factored_width Debug b = Panic PArith) /\
  (exists p, valid_proof p /\ mp_factored_width Debug p = Panic PArith).
Proof. exact c30_decoded_refuted. Qed.
Print Assumptions C30_decoded_refuted.

Theorem C31_known_proofs : forall (H : Hasher) md src rng t b
  (valid : valid_source src) (made : try_commit src rng = Ret (Ok t)) (from : derived md t b),
  let known := known_leaves (mb_cross_section b) in
  exists ps c, into_known_proofs md b = Ret ps /\ tree_commit_id md t = Ret c /\
    map fst ps = map fst known /\
    Forall2 (fun e x => convolve md (snd x) (fst e) (snd e) = Ret (Ok c)) known ps /\
    StronglySorted N.lt (map (fun x => mp_pos (snd x)) ps) /\ NoDup (map fst ps).
Proof. exact c31_known_proofs. Qed.
Print Assumptions C31_known_proofs.
Example C31_known_proofs_case :
  valid_source src0 /\ try_commit src0 None = Ret (Ok t0) /\ @derived toy Debug t0 b12 /\
  known_leaves (mb_cross_section b12) = [(p1, m1); (p2, m2)] /\
  exists pf2, @into_known_proofs toy Debug b12 = Ret [(p1, pf1); (p2, pf2)].
Proof. exact c31_known_proofs_case. Qed.

Theorem C31_tree_proofs : forall (H : Hasher) md src rng t
  (valid : valid_source src) (made : try_commit src rng = Ret (Ok t)),
  exists ps c, into_proofs md t = Ret ps /\ tree_commit_id md t = Ret c /\
    (forall p, In p (map fst ps) <-> In p (map fst (ms_messages src))) /\ NoDup (map fst ps) /\
    StronglySorted N.lt (map (fun x => mp_pos (snd x)) ps) /\
    (forall p pf msg, In (p, pf) ps -> In (p, msg) (ms_messages src) -> convolve md pf p msg = Ret (Ok c)).
Proof. exact c31_tree_proofs. Qed.
Print Assumptions C31_tree_proofs.
Example C31_tree_proofs_case :
  valid_source src0 /\ try_commit src0 None = Ret (Ok t0) /\
  exists ps, @into_proofs toy Debug t0 = Ret ps /\ map fst ps = [p1; p2; p3].
Proof. exact c31_tree_proofs_case. Qed.

Theorem C32_known_map : forall (H : Hasher) md src rng t
  (valid : valid_source src) (made : try_commit src rng = Ret (Ok t)),
  to_known_message_map (block_of_tree t) = Ret (ms_messages src) /\
  (forall b, derived md t b -> exists m, to_known_message_map b = Ret m /\ om_sorted b32_ltb m = true /\
     incl m (ms_messages src) /\
     forall e, In e m <-> In e (known_leaves (mb_cross_section b))) /\
  (forall b ids b' n, derived md t b -> conceal_except md b ids = Ret (b', Ok n) ->
     exists m m', to_known_message_map b = Ret m /\ to_known_message_map b' = Ret m' /\
       om_sorted b32_ltb m' = true /\
       forall p x, In (p, x) m' <-> In (p, x) m /\ In p ids) /\
  (forall b1 b2 b' r, derived md t b1 -> derived md t b2 -> merge_reveal md b1 b2 = Ret (b', r) ->
     exists m1 m2 m', to_known_message_map b1 = Ret m1 /\ to_known_message_map b2 = Ret m2 /\
       to_known_message_map b' = Ret m' /\ om_sorted b32_ltb m' = true /\
       forall e, In e m' <-> In e m1 \/ In e m2).
Proof. exact c32_known_map. Qed.
Print Assumptions C32_known_map.
Example C32_known_map_case :
  valid_source src0 /\ try_commit src0 None = Ret (Ok t0) /\ @derived toy Debug t0 b1 /\ @derived toy Debug t0 b3 /\
  to_known_message_map b1 = Ret [(p1, m1)] /\ to_known_message_map b3 = Ret [(p3, m1)] /\
  exists b n, @merge_reveal toy Debug b1 b3 = Ret (b, Ok n) /\ to_known_message_map b = Ret [(p1, m1); (p3, m1)].
Proof. exact c32_known_map_case. Qed.

Theorem C29_methods : forall t b pid (u5t : mt_depth t <= 31) (u5b : mb_depth b <= 31),
  mt_protocol_id_pos t pid = (le_val pid mod N.max 1 (2 ^ N.of_nat (mt_depth t) - mt_cofactor t))%N /\
  mb_protocol_id_pos b pid = (le_val pid mod N.max 1 (2 ^ N.of_nat (mb_depth b) - mb_cofactor b))%N.
Proof. exact c29_methods. Qed.
Print Assumptions C29_methods.
Example C29_methods_case : mt_depth t1 <= 31 /\ mt_protocol_id_pos t1 p1 = 2%N /\ mb_depth b1 <= 31 /\ mb_protocol_id_pos b1 p3 = 3%N.
Proof. exact c29_methods_case. Qed.
