(** Work of merging, extracting proofs and merklizing: C111 *)
From Coq Require Import Permutation Sorting.Sorted.
From Verif Require Import Base BaseFacts OrdMap Strict Digest Merkle MpcAtoms MpcTree MpcBlock.
From Verif Require Import Engine EngineIo Schemes Seals Api Vesper Sha256 Ripemd Dumb Text Loops Orders Suites MpcTests Serde Steps Work Costs.
From Verif Require Import SpecHash SpecTree SpecMerkle SpecFull SpecValid SpecCommit SpecDerived SpecBlock.
From Verif Require Import SpecBuoy SpecStrings SpecCodec SpecLayout SpecEngine SpecMisc SpecSha SpecDerive SpecLocal SpecSession SpecRipemd SpecEnd Stl SpecStl SpecQuery SpecCount SpecText SpecOrders SpecFind SpecForm SpecGame SpecHideGame SpecViewGame SpecBlockGame SpecSuites SpecExtend SpecCompress SpecTests SpecSerde SpecTalk SpecMany SpecDepth SpecTarget SpecIdGame SpecLate SpecTransfer SpecNest SpecScript SpecSalt SpecOpen SpecChoice SpecPick SpecOffer SpecPlay SpecSeek SpecShare SpecSettled SpecResting SpecDraw SpecFuse SpecFeed.
From Verif Require Import TheoremsMpc TheoremsBlock TheoremsMerkle TheoremsMisc TheoremsMore TheoremsExt TheoremsAdv TheoremsLocal TheoremsSession TheoremsHash TheoremsHide TheoremsEnd TheoremsStl TheoremsQuery TheoremsCount TheoremsText TheoremsFrame TheoremsLoops TheoremsTight TheoremsOrders TheoremsFind TheoremsForm TheoremsGame TheoremsHideGame TheoremsViewGame TheoremsBlockGame TheoremsSuites TheoremsExtend TheoremsCompress TheoremsTests TheoremsSerde TheoremsTalk TheoremsMany TheoremsDepth TheoremsWork TheoremsTarget TheoremsAttack TheoremsIdGame TheoremsLate TheoremsTransfer TheoremsNest TheoremsCosts TheoremsScript TheoremsSalt TheoremsOpen TheoremsChoice TheoremsPick TheoremsOffer TheoremsPlay TheoremsSeek TheoremsShare TheoremsSettled TheoremsResting TheoremsDraw TheoremsFuse TheoremsFeed.
From Verif Require Import CasesMpc CasesMisc CasesMore CasesExt CasesAdv CasesLocal CasesSession CasesHash CasesHide CasesEnd CasesStl CasesQuery CasesCount CasesText CasesFrame CasesLoops CasesTight CasesOrders CasesFind CasesForm CasesGame CasesHideGame CasesViewGame CasesBlockGame CasesSuites CasesExtend CasesCompress CasesTests CasesSerde CasesTalk CasesMany CasesDepth CasesWork CasesTarget CasesAttack CasesIdGame CasesLate CasesTransfer CasesNest CasesCosts CasesScript CasesSalt CasesOpen CasesChoice CasesPick CasesOffer CasesPlay CasesSeek CasesShare CasesSettled CasesResting CasesDraw CasesFuse CasesFeed.
Local Open Scope nat_scope.

Theorem C111_same : forall (H : Hasher) md,
  (forall b p, (' (r, _) <- counted_proof md b p ;; Ret r) = to_merkle_proof md b p) /\
  (forall b, (' (r, _) <- counted_proofs md b (known_protocol_ids b) ;; Ret r) = into_known_proofs md b) /\
  (forall t, (' (r, _) <- counted_tree_proofs md t ;; Ret r) = into_proofs md t) /\
  (forall a b, (' (c, r, _) <- counted_merge md a b ;; Ret (c, r)) = merge_reveal md a b) /\
  (forall l, (' (c, _) <- counted_merklize l ;; Ret c) = merklize l).
Proof. exact c111_same. Qed.
Print Assumptions C111_same.
Example C111_same_case :
  work_of (@counted_proof toy Debug b0 p1) = Some (Work 2 4 3 0) /\
  (exists r, @to_merkle_proof toy Debug b0 p1 = Ret (Ok r) /\ r = pf1) /\
  work_of (@counted_tree_proofs toy Debug t0) = Some (Work 6 13 10 4) /\
  (exists w, @counted_merge toy Debug b1 b3 = Ret (b13, Ok 4%N, (w, 2%N, 2%N)) /\ w_hashed w = 14%N) /\
  (exists c, @counted_merklize toy (numbered 5) = Ret (c, 5%N) /\ @merklize toy (numbered 5) = Ret c) /\
  @counted_proof toy Debug odd_block p1 = Ret (Err p1, Work 0 0 0 0).
Proof. exact c111_same_case. Qed.

Theorem C111_merge_any : forall (H : Hasher) md a b c r w rounds pushes na nb
  (sizes : na = N.of_nat (length (mb_cross_section a)) /\ nb = N.of_nat (length (mb_cross_section b)))
  (run : counted_merge md a b = Ret (c, r, (w, rounds, pushes))),
  (rounds <= na /\ rounds <= nb /\ 2 * rounds + pushes <= na + nb)%N.
Proof. exact c111_merge_any. Qed.
Print Assumptions C111_merge_any.
Example C111_merge_any_case :
  (exists w, @counted_merge toy Debug b1 b3 = Ret (b13, Ok 4%N, (w, 2%N, 2%N))) /\
  length (mb_cross_section b1) = 3 /\ length (mb_cross_section b3) = 3 /\
  exists w, @counted_merge toy Debug b0 b0' = Ret (b0, Err (UnrelatedBlocks c0 c0'), (w, 0%N, 0%N)).
Proof. exact c111_merge_any_case. Qed.

Theorem C111_merge : forall (H : Hasher) md a b c n w rounds pushes
  (run : counted_merge md a b = Ret (c, Ok n, (w, rounds, pushes))),
  let size x := N.of_nat (length (known_leaves (mb_cross_section x)) + length (mb_cross_section x)) in
  (size c <= size a + size b)%N /\
  (w_hashed w <= size a + size b + size c)%N /\
  (md = Debug \/ (wf_block a /\ wf_block b /\ wf_block c) -> w_hashed w = (size a + size b + size c)%N).
Proof. exact c111_merge. Qed.
Print Assumptions C111_merge.
Example C111_merge_case :
  (exists w, @counted_merge toy Debug b1 b3 = Ret (b13, Ok 4%N, (w, 2%N, 2%N)) /\ w_hashed w = 14%N) /\
  wf_block b1 /\ wf_block b3 /\
  exists w, @counted_merge toy Release even_block spare_block = Ret (even_block, Ok 2%N, (w, 2%N, 0%N)) /\ w_hashed w = 9%N.
Proof. exact c111_merge_case. Qed.

Theorem C111_rounds : forall (H : Hasher) md a b ta tb x c n w rounds pushes
  (formed : block_tree a ta /\ block_tree b tb)
  (ids : block_commit_id md a = Ret x /\ block_commit_id md b = Ret x)
  (run : counted_merge md a b = Ret (c, Ok n, (w, rounds, pushes))),
  let size y := N.of_nat (length (mb_cross_section y)) in
  (rounds + size c = size a + size b /\ pushes + rounds = size c)%N \/
  collision_in (pcommit_pre (mb_depth a) (mb_cofactor a) ta ++ pcommit_pre (mb_depth b) (mb_cofactor b) tb).
Proof. exact c111_rounds. Qed.
Print Assumptions C111_rounds.
Example C111_rounds_case : block_tree b1 pt1 /\ block_tree b3 pt3 /\ @block_commit_id toy Debug b1 = Ret c0 /\
  @block_commit_id toy Debug b3 = Ret c0 /\
  (exists w, @counted_merge toy Debug b1 b3 = Ret (b13, Ok 4%N, (w, 2%N, 2%N))) /\
  exists w, @counted_merge toy Debug b0 b1 = Ret (b0, Ok 4%N, (w, 3%N, 1%N)).
Proof. exact c111_rounds_case. Qed.

Theorem C111_proof : forall (H : Hasher) md b p
  (wf : wf_block b) (once : count_occ b32_eq_dec (known_protocol_ids b) p = 1),
  exists pf w, counted_proof md b p = Ret (Ok pf, w) /\
    (w_hashed w + 2 + N.of_nat (mb_depth b) =
     N.of_nat (length (known_leaves (mb_cross_section b)) + length (mb_cross_section b)) /\
     w_passes w <= N.of_nat (mb_depth b) + 1 /\
     w_looks w <= (N.of_nat (mb_depth b) + 1) * N.of_nat (length (mb_cross_section b)))%N.
Proof. exact c111_proof. Qed.
Print Assumptions C111_proof.
Example C111_proof_case : wf_block b0 /\ count_occ b32_eq_dec (known_protocol_ids b0) p1 = 1 /\
  exists pf, @counted_proof toy Debug b0 p1 = Ret (Ok pf, Work 2 4 3 0).
Proof. exact c111_proof_case. Qed.

Theorem C111_proofs : forall (H : Hasher) md b k n
  (wf : wf_block b) (distinct : NoDup (known_protocol_ids b))
  (sizes : k = N.of_nat (length (known_leaves (mb_cross_section b))) /\ n = N.of_nat (length (mb_cross_section b))),
  exists ps w, counted_proofs md b (known_protocol_ids b) = Ret (ps, w) /\
    w_hashed w = (k * (k + n - 2 - N.of_nat (mb_depth b)))%N.
Proof. exact c111_proofs. Qed.
Print Assumptions C111_proofs.
Example C111_proofs_case : wf_block b0 /\ NoDup (known_protocol_ids b0) /\
  exists ps w, @counted_proofs toy Debug b0 (known_protocol_ids b0) = Ret (ps, w) /\ length ps = 3 /\ w_hashed w = 9%N.
Proof. exact c111_proofs_case. Qed.

Theorem C111_tree : forall (H : Hasher) md src rng t d m
  (valid : valid_source src) (made : try_commit src rng = Ret (Ok t))
  (sizes : d = N.of_nat (mt_depth t) /\ m = N.of_nat (length (ms_messages src))),
  exists ps w, counted_tree_proofs md t = Ret (ps, w) /\ (m <= 2 ^ d)%N /\
    w_hashed w = ((2 ^ d - m) + m * ((m - 1) + (2 ^ d - 1 - d)))%N.
Proof. exact c111_tree. Qed.
Print Assumptions C111_tree.
Example C111_tree_case : valid_source src0 /\ try_commit src0 None = Ret (Ok t0) /\
  exists ps w, @counted_tree_proofs toy Debug t0 = Ret (ps, w) /\ w_hashed w = 10%N.
Proof. exact c111_tree_case. Qed.

Theorem C111_merklize : forall (H : Hasher) l c k j
  (level : (2 ^ j <= N.of_nat (length l) < 2 ^ (j + 1))%N) (run : counted_merklize l = Ret (c, k)),
  (k + 1 = N.min (2 * N.of_nat (length l) - 2 ^ j) (2 ^ (j + 1)))%N.
Proof. exact c111_merklize. Qed.
Print Assumptions C111_merklize.
Example C111_merklize_case :
  map (fun n => hashes_of (@counted_merklize toy (numbered n))) [1; 2; 3; 4; 5; 6; 7; 8; 9] =
  map Some [0; 1; 3; 3; 5; 7; 7; 7; 9]%N.
Proof. exact c111_merklize_case. Qed.

Theorem C111_linear : forall (H : Hasher) l c k n (size : n = N.of_nat (length l)) (several : (2 <= n)%N)
  (run : counted_merklize l = Ret (c, k)),
  (n - 1 <= k /\ 3 * k + 3 <= 4 * n)%N.
Proof. exact c111_linear. Qed.
Print Assumptions C111_linear.
Example C111_linear_case :
  hashes_of (@counted_merklize toy (numbered 16)) = Some 15%N /\ hashes_of (@counted_merklize toy (numbered 12)) = Some 15%N.
Proof. exact c111_linear_case. Qed.

Theorem C111_sum : forall (H : Hasher) md,
  let counters := [w_passes; w_looks; w_hashed; w_moved] in
  (forall b ids ps w (run : counted_proofs md b ids = Ret (ps, w)), exists ws,
     map fst ps = ids /\ Forall2 (fun x u => counted_proof md b (fst x) = Ret (Ok (snd x), u)) ps ws /\
     forall count, In count counters -> count w = fold_right N.add 0%N (map count ws)) /\
  (forall a b c n w rounds pushes (run : counted_merge md a b = Ret (c, Ok n, (w, rounds, pushes))), exists x wa wb wc,
     counted_commitment md a = Ret (x, wa) /\ counted_commitment md b = Ret (x, wb) /\ counted_commitment md c = Ret (x, wc) /\
     forall count, In count counters -> count w = (count wa + count wb + count wc)%N) /\
  (forall a b c e w rounds pushes (run : counted_merge md a b = Ret (c, Err e, (w, rounds, pushes))), exists x y wa wb,
     counted_commitment md a = Ret (x, wa) /\ counted_commitment md b = Ret (y, wb) /\ x <> y /\
     forall count, In count counters -> count w = (count wa + count wb)%N).
Proof. exact c111_sum. Qed.
Print Assumptions C111_sum.
Example C111_sum_case :
  (exists ps, @counted_proofs toy Debug b0 [p1; p2; p3] = Ret (ps, Work 6 13 9 4)) /\
  map (fun p => work_of (@counted_proof toy Debug b0 p)) [p1; p2; p3] = [Some (Work 2 4 3 0); Some (Work 2 5 3 2); Some (Work 2 4 3 2)] /\
  (exists w, @counted_merge toy Debug b1 b3 = Ret (b13, Ok 4%N, (w, 2%N, 2%N))) /\
  (exists w, @counted_merge toy Debug b0 b0' = Ret (b0, Err (UnrelatedBlocks c0 c0'), (w, 0%N, 0%N))).
Proof. exact c111_sum_case. Qed.

Theorem C111_refused : forall (H : Hasher) md b p q w (run : counted_proof md b p = Ret (Err q, w)),
  q = p /\ ~ In p (known_protocol_ids b) /\
  w = Work 0 0 (N.of_nat (length (known_leaves (mb_cross_section b)))) 0.
Proof. exact c111_refused. Qed.
Print Assumptions C111_refused.
Example C111_refused_case : exists p, @counted_proof toy Debug b0 p = Ret (Err p, Work 0 0 3 0) /\ length (known_leaves (mb_cross_section b0)) = 3.
Proof. exact c111_refused_case. Qed.
