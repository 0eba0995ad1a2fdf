(** Work of concealing and committing: C104 *)
From Coq Require Import Permutation Sorting.Sorted.
From Verif Require Import Base BaseFacts OrdMap Strict Digest Merkle MpcAtoms MpcTree MpcBlock.
From Verif Require Import Engine EngineIo Schemes Seals Api Vesper Sha256 Ripemd Dumb Text Loops Orders Suites MpcTests Serde Steps Work Costs.
From Verif Require Import SpecHash SpecTree SpecMerkle SpecFull SpecValid SpecCommit SpecDerived SpecBlock.
From Verif Require Import SpecBuoy SpecStrings SpecCodec SpecLayout SpecEngine SpecMisc SpecSha SpecDerive SpecLocal SpecSession SpecRipemd SpecEnd Stl SpecStl SpecQuery SpecCount SpecText SpecOrders SpecFind SpecForm SpecGame SpecHideGame SpecViewGame SpecBlockGame SpecSuites SpecExtend SpecCompress SpecTests SpecSerde SpecTalk SpecMany SpecDepth SpecTarget SpecIdGame SpecLate SpecTransfer SpecNest SpecScript SpecSalt SpecOpen SpecChoice SpecPick SpecOffer SpecPlay SpecSeek SpecShare SpecSettled SpecResting SpecDraw SpecFuse SpecFeed.
From Verif Require Import TheoremsMpc TheoremsBlock TheoremsMerkle TheoremsMisc TheoremsMore TheoremsExt TheoremsAdv TheoremsLocal TheoremsSession TheoremsHash TheoremsHide TheoremsEnd TheoremsStl TheoremsQuery TheoremsCount TheoremsText TheoremsFrame TheoremsLoops TheoremsTight TheoremsOrders TheoremsFind TheoremsForm TheoremsGame TheoremsHideGame TheoremsViewGame TheoremsBlockGame TheoremsSuites TheoremsExtend TheoremsCompress TheoremsTests TheoremsSerde TheoremsTalk TheoremsMany TheoremsDepth TheoremsWork TheoremsTarget TheoremsAttack TheoremsIdGame TheoremsLate TheoremsTransfer TheoremsNest TheoremsCosts TheoremsScript TheoremsSalt TheoremsOpen TheoremsChoice TheoremsPick TheoremsOffer TheoremsPlay TheoremsSeek TheoremsShare TheoremsSettled TheoremsResting TheoremsDraw TheoremsFuse TheoremsFeed.
From Verif Require Import CasesMpc CasesMisc CasesMore CasesExt CasesAdv CasesLocal CasesSession CasesHash CasesHide CasesEnd CasesStl CasesQuery CasesCount CasesText CasesFrame CasesLoops CasesTight CasesOrders CasesFind CasesForm CasesGame CasesHideGame CasesViewGame CasesBlockGame CasesSuites CasesExtend CasesCompress CasesTests CasesSerde CasesTalk CasesMany CasesDepth CasesWork CasesTarget CasesAttack CasesIdGame CasesLate CasesTransfer CasesNest CasesCosts CasesScript CasesSalt CasesOpen CasesChoice CasesPick CasesOffer CasesPlay CasesSeek CasesShare CasesSettled CasesResting CasesDraw CasesFuse CasesFeed.
Local Open Scope nat_scope.

Theorem C104_same : forall (H : Hasher) md,
  (forall b ids, (' (b', r, _) <- counted_except md b ids ;; Ret (b', r)) = conceal_except md b ids) /\
  (forall b, (' (c, _) <- counted_commitment md b ;; Ret c) = block_commit_id md b) /\
  (forall t, (' (c, _) <- counted_tree md t ;; Ret c) = tree_commit_id md t) /\
  (forall p pid msg, (r <- counted_convolve md p pid msg ;; Ret (match r with Ok (c, _) => Ok c | Err e => Err e end)) =
     convolve md p pid msg).
Proof. exact c104_same. Qed.
Print Assumptions C104_same.
Example C104_same_case : work_of (@counted_except toy Debug wide [b32_of_N 2]) = Some (Work 3 11 10 8) /\
  (exists b, @conceal_except toy Debug wide [b32_of_N 2] = Ret (b, Ok 10%N) /\ length (mb_cross_section b) = 4) /\
  @counted_except toy Debug odd_block [] = Panic PDebugAssert /\
  work_of (@counted_tree toy Debug t0) = Some (Work 3 4 8 2) /\
  exists c, @counted_convolve toy Debug pf1 p1 m1 = Ret (Ok (c, Work 3 4 4 1)) /\ c = c0.
Proof. exact c104_same_case. Qed.

Theorem C104_hashed : forall (H : Hasher) md b ids b' r w (run : counted_except md b ids = Ret (b', r, w)),
  match r with
  | Ok n => w_hashed w = n
  | Err _ => w_passes w = 0%N /\ w_looks w = 0%N /\ w_moved w = 0%N /\
      w_hashed w = N.of_nat (length (filter (fun e => negb (existsb (b32_eqb (fst e)) ids)) (known_leaves (mb_cross_section b))))
  end.
Proof. exact c104_hashed. Qed.
Print Assumptions C104_hashed.
Example C104_hashed_case :
  (exists b, @counted_except toy Release odd_block [] = Ret (b, Ok 2%N, Work 3 7 2 3)) /\
  exists b, @counted_except toy Debug wide [b32_of_N 77] = Ret (b, Err (b32_of_N 77), Work 0 0 7 0).
Proof. exact c104_hashed_case. Qed.

Theorem C104_any : forall (H : Hasher) md b ids b' r w n
  (size : n = N.of_nat (length (mb_cross_section b))) (some : mb_cross_section b <> [])
  (run : counted_except md b ids = Ret (b', r, w)),
  (w_passes w <= n /\ 2 * w_looks w <= n * (n + 1) /\ w_hashed w <= 2 * n - 1 /\ 2 * w_moved w <= (n - 1) * (n - 2))%N.
Proof. exact c104_any. Qed.
Print Assumptions C104_any.
Example C104_any_case : mb_cross_section odd_block <> [] /\ ~ wf_block odd_block /\
  exists b r, @counted_except toy Release odd_block [] = Ret (b, r, Work 3 7 2 3).
Proof. exact c104_any_case. Qed.

Theorem C104_formed : forall (H : Hasher) md b ids b' n w
  (wf : wf_block b) (run : counted_except md b ids = Ret (b', Ok n, w)),
  (w_passes w <= N.of_nat (mb_depth b) + 1)%N /\
  (w_looks w <= (N.of_nat (mb_depth b) + 1) * N.of_nat (length (mb_cross_section b)))%N.
Proof. exact c104_formed. Qed.
Print Assumptions C104_formed.
Example C104_formed_case : wf_block b0 /\ exists b, @counted_except toy Debug b0 [p1] = Ret (b, Ok 3%N, Work 2 4 3 0).
Proof. exact c104_formed_case. Qed.

Theorem C104_tree : forall (H : Hasher) md t d (depth : d = mt_depth t) (bounded : d <= 31),
  exists c moved, counted_tree md t =
    Ret (c, Work (N.of_nat d + 1) (2 ^ N.of_nat d) (2 * 2 ^ N.of_nat d) moved) /\
    (3 * moved + 3 * 2 ^ N.of_nat d = 4 ^ N.of_nat d + 2)%N.
Proof. exact c104_tree. Qed.
Print Assumptions C104_tree.
Example C104_tree_case : mt_depth deep_tree = 23 /\
  forall (H : Hasher) md, exists c, @counted_tree H md deep_tree = Ret (c, Work 24 8388608 16777216 23456239670614).
Proof. exact c104_tree_case. Qed.

Theorem C104_proof : forall (H : Hasher) md pf pid msg c w d
  (size : d = N.of_nat (length (mp_path pf))) (run : counted_convolve md pf pid msg = Ret (Ok (c, w))),
  (w_passes w = d + 1 /\ 2 * w_looks w = d * (d + 1) + 2 /\ w_hashed w = d + 2 /\ 2 * w_moved w <= d * (d - 1))%N.
Proof. exact c104_proof. Qed.
Print Assumptions C104_proof.
Example C104_proof_case : length (mp_path pf1) = 2 /\ mp_pos pf1 = 1%N /\
  exists c, @counted_convolve toy Debug pf1 p1 m1 = Ret (Ok (c, Work 3 4 4 1)).
Proof. exact c104_proof_case. Qed.

Theorem C104_leftmost : forall (H : Hasher) md pf pid msg c w d
  (size : d = N.of_nat (length (mp_path pf))) (first : mp_pos pf = 0%N)
  (run : counted_convolve md pf pid msg = Ret (Ok (c, w))),
  (2 * w_moved w = d * (d - 1))%N.
Proof. exact c104_leftmost. Qed.
Print Assumptions C104_leftmost.
Example C104_leftmost_case : length (mp_path pf_left) = 5 /\ mp_pos pf_left = 0%N /\
  exists c, @counted_convolve toy Debug pf_left (b32_of_N 0) m1 = Ret (Ok (c, Work 6 16 7 10)).
Proof. exact c104_leftmost_case. Qed.

Theorem C104_moves : forall (H : Hasher) md pf pid msg c w
  (run : counted_convolve md pf pid msg = Ret (Ok (c, w))),
  w_moved w = fold_right N.add 0%N (filter (fun j => negb (N.testbit (mp_pos pf) j)) (map N.of_nat (seq 0 (length (mp_path pf))))).
Proof. exact c104_moves. Qed.
Print Assumptions C104_moves.
Example C104_moves_case :
  exists c, @counted_convolve toy Debug pf_five (b32_of_N 5) m1 = Ret (Ok (c, Work 6 16 7 8)).
Proof. exact c104_moves_case. Qed.
