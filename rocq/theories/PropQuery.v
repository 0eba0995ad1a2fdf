(** Strings at which the hash function is used: C85 *)
From Coq Require Import Permutation Sorting.Sorted.
From Verif Require Import Base BaseFacts OrdMap Strict Digest Merkle MpcAtoms MpcTree MpcBlock.
From Verif Require Import Engine EngineIo Schemes Seals Api Vesper Sha256 Ripemd Dumb Text Loops Orders Suites MpcTests Serde Steps Work Costs.
From Verif Require Import SpecHash SpecTree SpecMerkle SpecFull SpecValid SpecCommit SpecDerived SpecBlock.
From Verif Require Import SpecBuoy SpecStrings SpecCodec SpecLayout SpecEngine SpecMisc SpecSha SpecDerive SpecLocal SpecSession SpecRipemd SpecEnd Stl SpecStl SpecQuery SpecCount SpecText SpecOrders SpecFind SpecForm SpecGame SpecHideGame SpecViewGame SpecBlockGame SpecSuites SpecExtend SpecCompress SpecTests SpecSerde SpecTalk SpecMany SpecDepth SpecTarget SpecIdGame SpecLate SpecTransfer SpecNest SpecScript SpecSalt SpecOpen SpecChoice SpecPick SpecOffer SpecPlay SpecSeek SpecShare SpecSettled SpecResting SpecDraw SpecFuse SpecFeed.
From Verif Require Import TheoremsMpc TheoremsBlock TheoremsMerkle TheoremsMisc TheoremsMore TheoremsExt TheoremsAdv TheoremsLocal TheoremsSession TheoremsHash TheoremsHide TheoremsEnd TheoremsStl TheoremsQuery TheoremsCount TheoremsText TheoremsFrame TheoremsLoops TheoremsTight TheoremsOrders TheoremsFind TheoremsForm TheoremsGame TheoremsHideGame TheoremsViewGame TheoremsBlockGame TheoremsSuites TheoremsExtend TheoremsCompress TheoremsTests TheoremsSerde TheoremsTalk TheoremsMany TheoremsDepth TheoremsWork TheoremsTarget TheoremsAttack TheoremsIdGame TheoremsLate TheoremsTransfer TheoremsNest TheoremsCosts TheoremsScript TheoremsSalt TheoremsOpen TheoremsChoice TheoremsPick TheoremsOffer TheoremsPlay TheoremsSeek TheoremsShare TheoremsSettled TheoremsResting TheoremsDraw TheoremsFuse TheoremsFeed.
From Verif Require Import CasesMpc CasesMisc CasesMore CasesExt CasesAdv CasesLocal CasesSession CasesHash CasesHide CasesEnd CasesStl CasesQuery CasesCount CasesText CasesFrame CasesLoops CasesTight CasesOrders CasesFind CasesForm CasesGame CasesHideGame CasesViewGame CasesBlockGame CasesSuites CasesExtend CasesCompress CasesTests CasesSerde CasesTalk CasesMany CasesDepth CasesWork CasesTarget CasesAttack CasesIdGame CasesLate CasesTransfer CasesNest CasesCosts CasesScript CasesSalt CasesOpen CasesChoice CasesPick CasesOffer CasesPlay CasesSeek CasesShare CasesSettled CasesResting CasesDraw CasesFuse CasesFeed.
Local Open Scope nat_scope.

Theorem C85_proof : forall (H H' : Hasher) md pf pid msg
  (same : agree H H' (@proof_pre H pf pid msg)), @convolve H' md pf pid msg = @convolve H md pf pid msg.
Proof. exact c85_proof. Qed.
Print Assumptions C85_proof.
Example C85_proof_case : agree toy twin (@proof_pre toy pf1 p1 m1) /\ (exists s, @HASH twin s <> @HASH toy s) /\
  @convolve twin Debug pf1 p1 m1 = Ret (Ok c0) /\ @convolve flat Debug pf1 p1 m1 <> Ret (Ok c0).
Proof. exact c85_proof_case. Qed.

Theorem C85_block : forall (H H' : Hasher) md b t (wf : block_tree b t)
  (same : agree H H' (@pcommit_pre H (mb_depth b) (mb_cofactor b) t)),
  @block_commit_id H' md b = @block_commit_id H md b.
Proof. exact c85_block. Qed.
Print Assumptions C85_block.
Example C85_block_case : block_tree b1 pt1 /\ agree toy twin (@pcommit_pre toy (mb_depth b1) (mb_cofactor b1) pt1) /\
  @block_commit_id twin Debug b1 = Ret c0.
Proof. exact c85_block_case. Qed.

Theorem C85_tree : forall (H H' : Hasher) md t (depth : mt_depth t <= 31) (same : agree H H' (@tree_pre H t)),
  @tree_commit_id H' md t = @tree_commit_id H md t.
Proof. exact c85_tree. Qed.
Print Assumptions C85_tree.
Example C85_tree_case : mt_depth t0 <= 31 /\ agree toy twin (@tree_pre toy t0) /\ @tree_commit_id twin Debug t0 = Ret c0 /\
  length (@tree_pre toy t0) = 10.
Proof. exact c85_tree_case. Qed.

Theorem C85_merklize : forall (H H' : Hasher) xs L (hashed : @root_hashed H xs L) (same : agree H H' L),
  @merklize H' xs = @merklize H xs.
Proof. exact c85_merklize. Qed.
Print Assumptions C85_merklize.
Example C85_merklize_case : exists L, @root_hashed toy [p1; p2; p3] L /\ agree toy twin L /\ length L = 4.
Proof. exact c85_merklize_case. Qed.

Theorem C85_engine : forall (H H' : Hasher) md md' tag fs e e' bss L
  (fed : @run H md fs (@engine_new H tag) = Ret e) (fed' : @run H' md' fs (@engine_new H' tag) = Ret e')
  (bytes : Forall2 (@feeds H) fs bss) (hashed : @fields_hashed H fs L)
  (same : agree H H' (tag :: @s_pre H tag (concat bss) :: L)),
  @digest_finish H' (engine_finish e') = @digest_finish H (engine_finish e).
Proof. exact c85_engine. Qed.
Print Assumptions C85_engine.
Example C85_engine_case : exists e e' L, @run toy Debug fields0 (@engine_new toy (str "tag")) = Ret e /\
  @run twin Release fields0 (@engine_new twin (str "tag")) = Ret e' /\ Forall2 (@feeds toy) fields0 bytes0 /\
  @fields_hashed toy fields0 L /\ agree toy twin (str "tag" :: @s_pre toy (str "tag") (concat bytes0) :: L).
Proof. exact c85_engine_case. Qed.

Theorem C85_count : forall (H : Hasher),
  (forall pf pid msg, length (proof_pre pf pid msg) = length (mp_path pf) + 4) /\
  (forall t, length (tree_pre t) = 2 * 2 ^ mt_depth t + 2) /\
  (forall xs L, root_hashed xs L -> length L <= 2 * length xs \/ xs = []).
Proof. exact c85_count. Qed.
Print Assumptions C85_count.
Example C85_count_case : length (@proof_pre toy pf1 p1 m1) = 6 /\ length (mp_path pf1) = 2.
Proof. exact c85_count_case. Qed.

Theorem C85_needed : forall (H : Hasher) md pf pid msg c x
  (ok : @convolve H md pf pid msg = Ret (Ok c)) (listed : In x (@proof_pre H pf pid msg)),
  exists H', (forall s, In s (@proof_pre H pf pid msg) -> s <> x -> @HASH H' s = @HASH H s) /\
    exists c', @convolve H' md pf pid msg = Ret (Ok c') /\ c' <> c.
Proof. exact c85_needed. Qed.
Print Assumptions C85_needed.
Example C85_needed_case : @convolve toy Debug pf1 p1 m1 = Ret (Ok c0) /\ In s_node_tag (@proof_pre toy pf1 p1 m1) /\
  In (@s_leaf toy p1 m1) (@proof_pre toy pf1 p1 m1).
Proof. exact c85_needed_case. Qed.
