(** The tests of the crate: C99 *)
From Coq Require Import Permutation Sorting.Sorted.
From Verif Require Import Base BaseFacts OrdMap Strict Digest Merkle MpcAtoms MpcTree MpcBlock.
From Verif Require Import Engine EngineIo Schemes Seals Api Vesper Sha256 Ripemd Dumb Text Loops Orders Suites MpcTests Serde Steps Work Costs.
From Verif Require Import SpecHash SpecTree SpecMerkle SpecFull SpecValid SpecCommit SpecDerived SpecBlock.
From Verif Require Import SpecBuoy SpecStrings SpecCodec SpecLayout SpecEngine SpecMisc SpecSha SpecDerive SpecLocal SpecSession SpecRipemd SpecEnd Stl SpecStl SpecQuery SpecCount SpecText SpecOrders SpecFind SpecForm SpecGame SpecHideGame SpecViewGame SpecBlockGame SpecSuites SpecExtend SpecCompress SpecTests SpecSerde SpecTalk SpecMany SpecDepth SpecTarget SpecIdGame SpecLate SpecTransfer SpecNest SpecScript SpecSalt SpecOpen SpecChoice SpecPick SpecOffer SpecPlay SpecSeek SpecShare SpecSettled SpecResting SpecDraw SpecFuse SpecFeed.
From Verif Require Import TheoremsMpc TheoremsBlock TheoremsMerkle TheoremsMisc TheoremsMore TheoremsExt TheoremsAdv TheoremsLocal TheoremsSession TheoremsHash TheoremsHide TheoremsEnd TheoremsStl TheoremsQuery TheoremsCount TheoremsText TheoremsFrame TheoremsLoops TheoremsTight TheoremsOrders TheoremsFind TheoremsForm TheoremsGame TheoremsHideGame TheoremsViewGame TheoremsBlockGame TheoremsSuites TheoremsExtend TheoremsCompress TheoremsTests TheoremsSerde TheoremsTalk TheoremsMany TheoremsDepth TheoremsWork TheoremsTarget TheoremsAttack TheoremsIdGame TheoremsLate TheoremsTransfer TheoremsNest TheoremsCosts TheoremsScript TheoremsSalt TheoremsOpen TheoremsChoice TheoremsPick TheoremsOffer TheoremsPlay TheoremsSeek TheoremsShare TheoremsSettled TheoremsResting TheoremsDraw TheoremsFuse TheoremsFeed.
From Verif Require Import CasesMpc CasesMisc CasesMore CasesExt CasesAdv CasesLocal CasesSession CasesHash CasesHide CasesEnd CasesStl CasesQuery CasesCount CasesText CasesFrame CasesLoops CasesTight CasesOrders CasesFind CasesForm CasesGame CasesHideGame CasesViewGame CasesBlockGame CasesSuites CasesExtend CasesCompress CasesTests CasesSerde CasesTalk CasesMany CasesDepth CasesWork CasesTarget CasesAttack CasesIdGame CasesLate CasesTransfer CasesNest CasesCosts CasesScript CasesSalt CasesOpen CasesChoice CasesPick CasesOffer CasesPlay CasesSeek CasesShare CasesSettled CasesResting CasesDraw CasesFuse CasesFeed.
Local Open Scope nat_scope.

Theorem C99_always : forall (H : Hasher) md rng,
  test_tree_empty rng = Ret tt /\
  (forall draws (nine : length draws = 9), test_tree_conceal md draws rng = Ret tt) /\
  (forall draws (three : length draws = 3), test_entropy md draws rng = Ret tt) /\
  (forall draws (one : length draws = 1), test_single_leaf_tree md draws rng = Ret tt) /\
  (forall runs (sizes : Forall (fun r => 0 < fst (fst r) <= length (snd (fst r))) runs), test_determin_tree md runs = Ret tt) /\
  (forall runs (sizes : Forall (fun r => 1 <= length (fst r) <= 10) runs),
     test_sparse_tree md runs = Ret tt /\ test_merge_reveal md runs = Ret tt).
Proof. exact c99_always. Qed.
Print Assumptions C99_always.
Example C99_always_case :
  length nine_draws = 9 /\ test_tree_empty 7 = Ret tt /\ @test_tree_conceal summing Debug nine_draws 7 = Ret tt /\
  @test_entropy summing Release (drawn [3; 3; 9]%N) 7 = Ret tt /\ @test_single_leaf_tree summing Debug (drawn [12]%N) 7 = Ret tt /\
  @test_determin_tree summing Debug [(1, [x01], 7%N); (4, [x01; x02; x03; x04], 8%N)] = Ret tt /\
  @test_sparse_tree summing Release [(drawn [1; 2]%N, 1%N); (drawn [4; 1; 7]%N, 9%N)] = Ret tt /\
  @test_merge_reveal summing Debug [(drawn [1; 2]%N, 1%N); (drawn [4; 1; 7]%N, 9%N)] = Ret tt.
Proof. exact c99_always_case. Qed.

Theorem C99_det : forall no draws (drawn : 1 <= no <= length draws), exists x,
  nth_error draws (no - 1) = Some x /\ make_det_messages no draws = [(b32_of_N (N.of_nat no), b32_fill x)].
Proof. exact c99_det. Qed.
Print Assumptions C99_det.
Example C99_det_case : make_det_messages 3 [x05; x06; x07] = [(b32_of_N 3, b32_fill x07)] /\
  length (make_random_messages (drawn [1; 2; 3]%N)) = 3.
Proof. exact c99_det_case. Qed.

Theorem C99_id : forall (H : Hasher) md draws rng (nine : length draws = 9),
  exists t, make_random_tree (make_random_messages draws) rng = Ret t /\
    (test_tree_id md draws rng = Ret tt \/ collision_in (tree_pre t)).
Proof. exact c99_id. Qed.
Print Assumptions C99_id.
Example C99_id_case : length nine_draws = 9 /\ @test_tree_id summing Debug nine_draws 7 = Ret tt /\
  @test_tree_id (fun _ => b32_fill x00) Debug nine_draws 7 = Panic PAssert.
Proof. exact c99_id_case. Qed.

Theorem C99_id_entropy : forall (H : Hasher) md (draws : list draw) rng others
  (nine : length draws = 9) (bits : u128 draws) (diff : different draws) (rng_u64 : (rng < 2 ^ 64)%N)
  (others_u64 : Forall (fun x => x < 2 ^ 64)%N others) (another : exists x, In x others /\ x <> rng),
  exists t e, make_random_tree (make_random_messages draws) rng = Ret t /\ In e others /\ e <> rng /\
    (test_tree_id_entropy md draws rng others = Ret tt \/ collision_in (tree_pre t ++ tree_pre (tree_with_entropy t e))).
Proof. exact c99_id_entropy. Qed.
Print Assumptions C99_id_entropy.
Example C99_id_entropy_case : length nine_draws = 9 /\ u128 nine_draws /\ different nine_draws /\
  (exists x, In x [7; 8]%N /\ x <> 7%N) /\ @test_tree_id_entropy summing Debug nine_draws 7 [7; 8]%N = Ret tt.
Proof. exact c99_id_entropy_case. Qed.

Theorem C99_id_entropy_refuted : exists draws, length draws = 9 /\ u128 draws /\
  forall (H : Hasher) md rng others, (exists x, In x others /\ x <> rng) ->
    test_tree_id_entropy md draws rng others = Panic PAssert.
Proof. exact c99_id_entropy_refuted. Qed.
Print Assumptions C99_id_entropy_refuted.

Theorem C99_structure : forall md (draws : list draw) rng
  (nine : length draws = 9) (bits : u128 draws) (diff : different draws),
  let fails := apart 9 draws /\ forall w, (10 <= w <= 16)%N -> ~ apart w draws in
  (fails /\ test_tree_structure md draws rng = Panic PAssert) \/ (~ fails /\ test_tree_structure md draws rng = Ret tt).
Proof. exact c99_structure. Qed.
Print Assumptions C99_structure.
Example C99_structure_case :
  (length nine_draws = 9 /\ u128 nine_draws /\ different nine_draws /\ test_tree_structure Debug nine_draws 7 = Ret tt) /\
  (length narrow = 9 /\ u128 narrow /\ different narrow /\ test_tree_structure Debug narrow 7 = Panic PAssert).
Proof. exact c99_structure_case. Qed.

Theorem C99_structure_refuted : exists draws, length draws = 9 /\ u128 draws /\ different draws /\
  forall md rng, test_tree_structure md draws rng = Panic PAssert.
Proof. exact c99_structure_refuted. Qed.
Print Assumptions C99_structure_refuted.

Theorem C99_sizing : forall runs
  (fine : Forall (fun r : run_of => 1 <= length (fst r) <= 10 \/ 
     (1 <= length (fst r) < 1000 /\ u128 (fst r) /\ different (fst r) /\ room 31 (fst r))) runs),
  test_tree_sizing runs = Ret tt.
Proof. exact c99_sizing. Qed.
Print Assumptions C99_sizing.
Example C99_sizing_case : 1 <= length twelve_draws < 1000 /\ u128 twelve_draws /\ different twelve_draws /\ room 31 twelve_draws /\
  test_tree_sizing [(twelve_draws, 3%N); (drawn [0; 0]%N, 4%N)] = Ret tt.
Proof. exact c99_sizing_case. Qed.

Theorem C99_scalability : forall runs
  (ten : length runs = 10)
  (fine : Forall (fun r : run_of => length (fst r) = 500 /\ u128 (fst r) /\ different (fst r) /\ room 15 (fst r)) runs),
  test_scalability runs = Ret tt.
Proof. exact c99_scalability. Qed.
Print Assumptions C99_scalability.
Example C99_scalability_case : length (repeat (odd_draws, 5%N) 10) = 10 /\
  Forall (fun r : run_of => length (fst r) = 500 /\ u128 (fst r) /\ different (fst r) /\ room 15 (fst r)) (repeat (odd_draws, 5%N) 10) /\
  ~ apart 512 odd_draws.
Proof. exact c99_scalability_case. Qed.

Theorem C99_sizing_refuted : exists runs : list run_of, map (fun r => length (fst r)) runs = sizes /\
  Forall (fun r => u128 (fst r) /\ different (fst r)) runs /\ test_tree_sizing runs = Panic PExpect.
Proof. exact c99_sizing_refuted. Qed.
Print Assumptions C99_sizing_refuted.

Theorem C99_scalability_refuted : exists runs : list run_of, length runs = 10 /\
  Forall (fun r => length (fst r) = 500 /\ u128 (fst r) /\ different (fst r)) runs /\ test_scalability runs = Panic PExpect.
Proof. exact c99_scalability_refuted. Qed.
Print Assumptions C99_scalability_refuted.

Theorem C99_huge : forall (H : Hasher) md (draws : list draw) rng
  (many : N.of_nat (length draws) = 8192%N) (bits : u128 draws) (diff : different draws) (fit : room 31 draws),
  exists t root, make_random_tree (make_random_messages draws) rng = Ret t /\ length (mt_messages t) = length draws /\ mt_root t = Ret root /\
    test_tree_huge md draws rng = Ret (mt_depth t, mt_cofactor t, 2 ^ N.of_nat (mt_depth t) - mt_cofactor t, 1081362, root)%N.
Proof. exact c99_huge. Qed.
Print Assumptions C99_huge.
Example C99_huge_case : N.of_nat (length many_draws) = 8192%N /\ u128 many_draws /\ different many_draws /\ room 31 many_draws.
Proof. exact c99_huge_case. Qed.
