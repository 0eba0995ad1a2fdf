(** Extracted collisions: C90 *)
From Coq Require Import Permutation Sorting.Sorted.
From Verif Require Import Base BaseFacts OrdMap Strict Digest Merkle MpcAtoms MpcTree MpcBlock.
From Verif Require Import Engine EngineIo Schemes Seals Api Vesper Sha256 Ripemd Dumb Text Loops Orders Suites MpcTests Serde Steps Work Costs.
From Verif Require Import SpecHash SpecTree SpecMerkle SpecFull SpecValid SpecCommit SpecDerived SpecBlock.
From Verif Require Import SpecBuoy SpecStrings SpecCodec SpecLayout SpecEngine SpecMisc SpecSha SpecDerive SpecLocal SpecSession SpecRipemd SpecEnd Stl SpecStl SpecQuery SpecCount SpecText SpecOrders SpecFind SpecForm SpecGame SpecHideGame SpecViewGame SpecBlockGame SpecSuites SpecExtend SpecCompress SpecTests SpecSerde SpecTalk SpecMany SpecDepth SpecTarget SpecIdGame SpecLate SpecTransfer SpecNest SpecScript SpecSalt SpecOpen SpecChoice SpecPick SpecOffer SpecPlay SpecSeek SpecShare SpecSettled SpecResting SpecDraw SpecFuse SpecFeed.
From Verif Require Import TheoremsMpc TheoremsBlock TheoremsMerkle TheoremsMisc TheoremsMore TheoremsExt TheoremsAdv TheoremsLocal TheoremsSession TheoremsHash TheoremsHide TheoremsEnd TheoremsStl TheoremsQuery TheoremsCount TheoremsText TheoremsFrame TheoremsLoops TheoremsTight TheoremsOrders TheoremsFind TheoremsForm TheoremsGame TheoremsHideGame TheoremsViewGame TheoremsBlockGame TheoremsSuites TheoremsExtend TheoremsCompress TheoremsTests TheoremsSerde TheoremsTalk TheoremsMany TheoremsDepth TheoremsWork TheoremsTarget TheoremsAttack TheoremsIdGame TheoremsLate TheoremsTransfer TheoremsNest TheoremsCosts TheoremsScript TheoremsSalt TheoremsOpen TheoremsChoice TheoremsPick TheoremsOffer TheoremsPlay TheoremsSeek TheoremsShare TheoremsSettled TheoremsResting TheoremsDraw TheoremsFuse TheoremsFeed.
From Verif Require Import CasesMpc CasesMisc CasesMore CasesExt CasesAdv CasesLocal CasesSession CasesHash CasesHide CasesEnd CasesStl CasesQuery CasesCount CasesText CasesFrame CasesLoops CasesTight CasesOrders CasesFind CasesForm CasesGame CasesHideGame CasesViewGame CasesBlockGame CasesSuites CasesExtend CasesCompress CasesTests CasesSerde CasesTalk CasesMany CasesDepth CasesWork CasesTarget CasesAttack CasesIdGame CasesLate CasesTransfer CasesNest CasesCosts CasesScript CasesSalt CasesOpen CasesChoice CasesPick CasesOffer CasesPlay CasesSeek CasesShare CasesSettled CasesResting CasesDraw CasesFuse CasesFeed.
Local Open Scope nat_scope.

Theorem C90_find : forall (H : Hasher) L,
  (forall x y, find_collision L = Some (x, y) -> In x L /\ In y L /\ x <> y /\ HASH x = HASH y) /\
  (collision_in L <-> exists x y, find_collision L = Some (x, y)).
Proof. exact c90_find. Qed.
Print Assumptions C90_find.
Example C90_find_case : @find_collision flat [[x00]; [x00]; [x01]] = Some ([x00], [x01]) /\
  @find_collision toy [[x00]; [x00]; [x01]] = None.
Proof. exact c90_find_case. Qed.

Theorem C90_strings : forall (H : Hasher) s,
  (forall D cofactor t, In s (pcommit_pre D cofactor t) -> length s <= 162) /\
  (forall pf pid msg, In s (proof_pre pf pid msg) -> length s <= 162) /\
  (forall t, In s (tree_pre t) -> length s <= 162) /\
  (forall xs L, root_hashed xs L -> In s L -> length s <= 162).
Proof. exact c90_strings. Qed.
Print Assumptions C90_strings.
Example C90_strings_case : In (@s_leaf toy p1 m1) (@proof_pre toy pf1 p1 m1) /\ length (@s_leaf toy p1 m1) = 129 /\
  map (@length byte) (@proof_pre toy pf1 p1 m1) = [34; 37; 99; 162; 162; 129].
Proof. exact c90_strings_case. Qed.

Theorem C90_two_messages : forall (H : Hasher) md1 md2 pf1 pf2 pid m1 m2 c
  (valid1 : valid_proof pf1) (valid2 : valid_proof pf2) (different : m1 <> m2)
  (conv1 : convolve md1 pf1 pid m1 = Ret (Ok c)) (conv2 : convolve md2 pf2 pid m2 = Ret (Ok c)),
  let L := proof_pre pf1 pid m1 ++ proof_pre pf2 pid m2 in
  length L = length (mp_path pf1) + length (mp_path pf2) + 8 /\ length L <= 70 /\ yields_collision L.
Proof. exact c90_two_messages. Qed.
Print Assumptions C90_two_messages.
Example C90_two_messages_case : valid_proof pf1 /\ m1 <> m2 /\
  @convolve flat Debug pf1 p1 m1 = Ret (Ok cflat) /\ @convolve flat Release pf1 p1 m2 = Ret (Ok cflat) /\
  length (@proof_pre flat pf1 p1 m1 ++ @proof_pre flat pf1 p1 m2) = 12.
Proof. exact c90_two_messages_case. Qed.

Theorem C90_two_trees : forall (H : Hasher) md src1 rng1 t1 src2 rng2 t2 c
  (valid1 : valid_source src1) (valid2 : valid_source src2)
  (rng1_u64 : match rng1 with Some e => (e < 2 ^ 64)%N | None => True end)
  (rng2_u64 : match rng2 with Some e => (e < 2 ^ 64)%N | None => True end)
  (made1 : try_commit src1 rng1 = Ret (Ok t1)) (made2 : try_commit src2 rng2 = Ret (Ok t2))
  (id1 : tree_commit_id md t1 = Ret c) (id2 : tree_commit_id md t2 = Ret c)
  (different : mt_messages t1 <> mt_messages t2),
  let L := tree_pre t1 ++ tree_pre t2 in
  length L = 2 * 2 ^ mt_depth t1 + 2 * 2 ^ mt_depth t2 + 4 /\ yields_collision L.
Proof. exact c90_two_trees. Qed.
Print Assumptions C90_two_trees.
Example C90_two_trees_case :
  valid_source src0 /\ valid_source src0' /\ try_commit src0 None = Ret (Ok t0) /\ try_commit src0' None = Ret (Ok t0') /\
  @tree_commit_id flat Debug t0 = Ret cflat /\ @tree_commit_id flat Debug t0' = Ret cflat /\ mt_messages t0 <> mt_messages t0'.
Proof. exact c90_two_trees_case. Qed.

Theorem C90_two_lists : forall (H : Hasher) xs ys r L L'
  (root1 : merklize xs = Ret r) (root2 : merklize ys = Ret r)
  (hashed1 : root_hashed xs L) (hashed2 : root_hashed ys L')
  (several1 : 1 < length xs) (several2 : 1 < length ys) (different : xs <> ys),
  length (L ++ L') <= 2 * length xs + 2 * length ys /\ yields_collision (L ++ L').
Proof. exact c90_two_lists. Qed.
Print Assumptions C90_two_lists.
Example C90_two_lists_case : exists L L', @merklize flat [p1; p2] = Ret cflat /\ @merklize flat [p3; p1; p2] = Ret cflat /\
  @root_hashed flat [p1; p2] L /\ @root_hashed flat [p3; p1; p2] L' /\ [p1; p2] <> [p3; p1; p2].
Proof. exact c90_two_lists_case. Qed.

Theorem C90_tight : forall (H : Hasher) md pf pid m1 m2 c
  (conv : convolve md pf pid m1 = Ret (Ok c)) (collision : HASH (s_leaf pid m1) = HASH (s_leaf pid m2)),
  convolve md pf pid m2 = Ret (Ok c).
Proof. exact c90_tight. Qed.
Print Assumptions C90_tight.
Example C90_tight_case : @convolve flat Debug pf1 p1 m1 = Ret (Ok cflat) /\
  @HASH flat (@s_leaf flat p1 m1) = @HASH flat (@s_leaf flat p1 m2) /\ m1 <> m2.
Proof. exact c90_tight_case. Qed.
