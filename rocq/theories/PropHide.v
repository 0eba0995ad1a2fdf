(** Hidden content: C81 *)
From Coq Require Import Permutation Sorting.Sorted.
From Verif Require Import Base BaseFacts OrdMap Strict Digest Merkle MpcAtoms MpcTree MpcBlock.
From Verif Require Import Engine EngineIo Schemes Seals Api Vesper Sha256 Ripemd Dumb Text Loops Orders Suites MpcTests Serde Steps Work Costs.
From Verif Require Import SpecHash SpecTree SpecMerkle SpecFull SpecValid SpecCommit SpecDerived SpecBlock.
From Verif Require Import SpecBuoy SpecStrings SpecCodec SpecLayout SpecEngine SpecMisc SpecSha SpecDerive SpecLocal SpecSession SpecRipemd SpecEnd Stl SpecStl SpecQuery SpecCount SpecText SpecOrders SpecFind SpecForm SpecGame SpecHideGame SpecViewGame SpecBlockGame SpecSuites SpecExtend SpecCompress SpecTests SpecSerde SpecTalk SpecMany SpecDepth SpecTarget SpecIdGame SpecLate SpecTransfer SpecNest SpecScript SpecSalt SpecOpen SpecChoice SpecPick SpecOffer SpecPlay SpecSeek SpecShare SpecSettled SpecResting SpecDraw SpecFuse SpecFeed.
From Verif Require Import TheoremsMpc TheoremsBlock TheoremsMerkle TheoremsMisc TheoremsMore TheoremsExt TheoremsAdv TheoremsLocal TheoremsSession TheoremsHash TheoremsHide TheoremsEnd TheoremsStl TheoremsQuery TheoremsCount TheoremsText TheoremsFrame TheoremsLoops TheoremsTight TheoremsOrders TheoremsFind TheoremsForm TheoremsGame TheoremsHideGame TheoremsViewGame TheoremsBlockGame TheoremsSuites TheoremsExtend TheoremsCompress TheoremsTests TheoremsSerde TheoremsTalk TheoremsMany TheoremsDepth TheoremsWork TheoremsTarget TheoremsAttack TheoremsIdGame TheoremsLate TheoremsTransfer TheoremsNest TheoremsCosts TheoremsScript TheoremsSalt TheoremsOpen TheoremsChoice TheoremsPick TheoremsOffer TheoremsPlay TheoremsSeek TheoremsShare TheoremsSettled TheoremsResting TheoremsDraw TheoremsFuse TheoremsFeed.
From Verif Require Import CasesMpc CasesMisc CasesMore CasesExt CasesAdv CasesLocal CasesSession CasesHash CasesHide CasesEnd CasesStl CasesQuery CasesCount CasesText CasesFrame CasesLoops CasesTight CasesOrders CasesFind CasesForm CasesGame CasesHideGame CasesViewGame CasesBlockGame CasesSuites CasesExtend CasesCompress CasesTests CasesSerde CasesTalk CasesMany CasesDepth CasesWork CasesTarget CasesAttack CasesIdGame CasesLate CasesTransfer CasesNest CasesCosts CasesScript CasesSalt CasesOpen CasesChoice CasesPick CasesOffer CasesPlay CasesSeek CasesShare CasesSettled CasesResting CasesDraw CasesFuse CasesFeed.
Local Open Scope nat_scope.

Theorem C81_hidden : forall (H : Hasher) md src src' rng rng' t t' ids b n
  (valid : valid_source src) (valid' : valid_source src')
  (made : try_commit src rng = Ret (Ok t)) (made' : try_commit src' rng' = Ret (Ok t'))
  (same_method : ms_method src = ms_method src')
  (same_depth : mt_depth t = mt_depth t') (same_cofactor : mt_cofactor t = mt_cofactor t')
  (shared : forall p, In p ids -> exists m, In (p, m) (ms_messages src) /\ In (p, m) (ms_messages src'))
  (shown : conceal_except md (block_of_tree t) ids = Ret (b, Ok n)),
  (exists H' : Hasher,
     (forall x, @HASH H' x <> @HASH H x -> In x (@tree_pre H t') /\ ~ In x (@tree_pre H t)) /\
     forall u, u = t \/ u = t' ->
       (exists n', @conceal_except H' md (@block_of_tree H' u) ids = Ret (b, Ok n')) /\
       @tree_commit_id H' md u = @tree_commit_id H md t /\
       forall p, In p ids ->
         @to_merkle_proof H' md (@block_of_tree H' u) p = @to_merkle_proof H md (@block_of_tree H t) p) \/
  collision_in (tree_pre t ++ tree_pre t').
Proof. exact c81_hidden. Qed.
Print Assumptions C81_hidden.
Example C81_hidden_case : valid_source src0 /\ valid_source srch /\
  try_commit src0 None = Ret (Ok t0) /\ try_commit srch None = Ret (Ok th) /\ ms_method src0 = ms_method srch /\
  mt_depth t0 = mt_depth th /\ mt_cofactor t0 = mt_cofactor th /\
  In (p1, m1) (ms_messages src0) /\ In (p1, m1) (ms_messages srch) /\
  (exists b n, @conceal_except sha256 Debug (@block_of_tree sha256 t0) [p1] = Ret (b, Ok n)) /\
  length (ms_messages src0) = 3 /\ length (ms_messages srch) = 1 /\
  @tree_commit_id sha256 Debug t0 <> @tree_commit_id sha256 Debug th /\
  ~ @collision_in sha256 (@tree_pre sha256 t0 ++ @tree_pre sha256 th).
Proof. exact c81_hidden_case. Qed.
