(** Loops as written: C88 *)
From Coq Require Import Permutation Sorting.Sorted.
From Verif Require Import Base BaseFacts OrdMap Strict Digest Merkle MpcAtoms MpcTree MpcBlock.
From Verif Require Import Engine EngineIo Schemes Seals Api Vesper Sha256 Ripemd Dumb Text Loops Orders Suites MpcTests Serde Steps Work Costs.
From Verif Require Import SpecHash SpecTree SpecMerkle SpecFull SpecValid SpecCommit SpecDerived SpecBlock.
From Verif Require Import SpecBuoy SpecStrings SpecCodec SpecLayout SpecEngine SpecMisc SpecSha SpecDerive SpecLocal SpecSession SpecRipemd SpecEnd Stl SpecStl SpecQuery SpecCount SpecText SpecOrders SpecFind SpecForm SpecGame SpecHideGame SpecViewGame SpecBlockGame SpecSuites SpecExtend SpecCompress SpecTests SpecSerde SpecTalk SpecMany SpecDepth SpecTarget SpecIdGame SpecLate SpecTransfer SpecNest SpecScript SpecSalt SpecOpen SpecChoice SpecPick SpecOffer SpecPlay SpecSeek SpecShare SpecSettled SpecResting SpecDraw SpecFuse SpecFeed.
From Verif Require Import TheoremsMpc TheoremsBlock TheoremsMerkle TheoremsMisc TheoremsMore TheoremsExt TheoremsAdv TheoremsLocal TheoremsSession TheoremsHash TheoremsHide TheoremsEnd TheoremsStl TheoremsQuery TheoremsCount TheoremsText TheoremsFrame TheoremsLoops TheoremsTight TheoremsOrders TheoremsFind TheoremsForm TheoremsGame TheoremsHideGame TheoremsViewGame TheoremsBlockGame TheoremsSuites TheoremsExtend TheoremsCompress TheoremsTests TheoremsSerde TheoremsTalk TheoremsMany TheoremsDepth TheoremsWork TheoremsTarget TheoremsAttack TheoremsIdGame TheoremsLate TheoremsTransfer TheoremsNest TheoremsCosts TheoremsScript TheoremsSalt TheoremsOpen TheoremsChoice TheoremsPick TheoremsOffer TheoremsPlay TheoremsSeek TheoremsShare TheoremsSettled TheoremsResting TheoremsDraw TheoremsFuse TheoremsFeed.
From Verif Require Import CasesMpc CasesMisc CasesMore CasesExt CasesAdv CasesLocal CasesSession CasesHash CasesHide CasesEnd CasesStl CasesQuery CasesCount CasesText CasesFrame CasesLoops CasesTight CasesOrders CasesFind CasesForm CasesGame CasesHideGame CasesViewGame CasesBlockGame CasesSuites CasesExtend CasesCompress CasesTests CasesSerde CasesTalk CasesMany CasesDepth CasesWork CasesTarget CasesAttack CasesIdGame CasesLate CasesTransfer CasesNest CasesCosts CasesScript CasesSalt CasesOpen CasesChoice CasesPick CasesOffer CasesPlay CasesSeek CasesShare CasesSettled CasesResting CasesDraw CasesFuse CasesFeed.
Local Open Scope nat_scope.

Theorem C88_buoy : forall x d, lit_push (buoy_size x) x d = Ret (buoy_push x d).
Proof. exact c88_buoy. Qed.
Print Assumptions C88_buoy.
Example C88_buoy_case : let x := Buoy 4 (Some (Buoy 5 (Some (Buoy 6 None)))) in
  buoy_size x = 3 /\ lit_push 3 x 6 = Ret (true, Buoy 3 None) /\ lit_push 2 x 6 = Panic PFuel.
Proof. exact c88_buoy_case. Qed.

Theorem C88_with : forall path pos w, lit_with path 0 pos w [] [] = with_loop path 0 pos w.
Proof. exact c88_with. Qed.
Print Assumptions C88_with.
Example C88_with_case : lit_with (mp_path pf1) 0 (mp_pos pf1) 4 [] [] = with_loop (mp_path pf1) 0 (mp_pos pf1) 4 /\
  (exists d r, lit_with (mp_path pf1) 0 (mp_pos pf1) 4 [] [] = Ret (d, r) /\ length d + length r = 2).
Proof. exact c88_with_case. Qed.

Theorem C88_search : forall fuel msgs map d w, lit_search fuel msgs map d w = commit_loop fuel msgs d w.
Proof. exact c88_search. Qed.
Print Assumptions C88_search.
Example C88_search_case : exists m, lit_search 32 (ms_messages src0) [] 0 1 = Ret (Ok (2, 0%N, m)) /\ length m = 3.
Proof. exact c88_search_case. Qed.

Theorem C88_conceal : forall (H : Hasher) md b protocols, lit_conceal_except md b protocols = conceal_except md b protocols.
Proof. exact c88_conceal. Qed.
Print Assumptions C88_conceal.
Example C88_conceal_case : @lit_conceal_except toy Debug b0 [p1] = Ret (b1, Ok 3%N) /\
  length (mb_cross_section b0) = 4 /\ length (mb_cross_section b1) = 3.
Proof. exact c88_conceal_case. Qed.

Theorem C88_merge : forall D sa sb, lit_merge_sections D sa sb = merge_loop (S (length sa)) D sa sb.
Proof. exact c88_merge. Qed.
Print Assumptions C88_merge.
Example C88_merge_case : lit_merge_sections 2 (mb_cross_section b1) (mb_cross_section b3) = Ret (mb_cross_section b13) /\
  length (mb_cross_section b13) = 4.
Proof. exact c88_merge_case. Qed.

Theorem C88_panics :
  (forall (H : Hasher) md b protocols p, lit_conceal_except md b protocols = Panic p ->
     p = PArith \/ (p = PDebugAssert /\ md = Debug)) /\
  (forall D sa sb p, lit_merge_sections D sa sb = Panic p -> p = PUnreachable).
Proof. exact c88_panics. Qed.
Print Assumptions C88_panics.
Example C88_panics_case :
  @lit_conceal_except toy Release (MBlock Sha256t 1 0 [ConcealedNode 0 p1; ConcealedNode 0 p2] None) [] = Panic PArith /\
  @lit_conceal_except toy Debug (MBlock Sha256t 2 0 [ConcealedNode 2 p1; ConcealedNode 2 p2] None) [] = Panic PDebugAssert /\
  lit_merge_sections 0 [CommitmentLeaf p1 m1] [CommitmentLeaf p2 m2] = Panic PUnreachable.
Proof. exact c88_panics_case. Qed.
