(** Published type library and layouts: C83-C84 *)
From Coq Require Import Permutation Sorting.Sorted.
From Verif Require Import Base BaseFacts OrdMap Strict Digest Merkle MpcAtoms MpcTree MpcBlock.
From Verif Require Import Engine EngineIo Schemes Seals Api Vesper Sha256 Ripemd Dumb Text Loops Orders Suites MpcTests Serde Steps Work Costs.
From Verif Require Import SpecHash SpecTree SpecMerkle SpecFull SpecValid SpecCommit SpecDerived SpecBlock.
From Verif Require Import SpecBuoy SpecStrings SpecCodec SpecLayout SpecEngine SpecMisc SpecSha SpecDerive SpecLocal SpecSession SpecRipemd SpecEnd Stl SpecStl SpecQuery SpecCount SpecText SpecOrders SpecFind SpecForm SpecGame SpecHideGame SpecViewGame SpecBlockGame SpecSuites SpecExtend SpecCompress SpecTests SpecSerde SpecTalk SpecMany SpecDepth SpecTarget SpecIdGame SpecLate SpecTransfer SpecNest SpecScript SpecSalt SpecOpen SpecChoice SpecPick SpecOffer SpecPlay SpecSeek SpecShare SpecSettled SpecResting SpecDraw SpecFuse SpecFeed.
From Verif Require Import TheoremsMpc TheoremsBlock TheoremsMerkle TheoremsMisc TheoremsMore TheoremsExt TheoremsAdv TheoremsLocal TheoremsSession TheoremsHash TheoremsHide TheoremsEnd TheoremsStl TheoremsQuery TheoremsCount TheoremsText TheoremsFrame TheoremsLoops TheoremsTight TheoremsOrders TheoremsFind TheoremsForm TheoremsGame TheoremsHideGame TheoremsViewGame TheoremsBlockGame TheoremsSuites TheoremsExtend TheoremsCompress TheoremsTests TheoremsSerde TheoremsTalk TheoremsMany TheoremsDepth TheoremsWork TheoremsTarget TheoremsAttack TheoremsIdGame TheoremsLate TheoremsTransfer TheoremsNest TheoremsCosts TheoremsScript TheoremsSalt TheoremsOpen TheoremsChoice TheoremsPick TheoremsOffer TheoremsPlay TheoremsSeek TheoremsShare TheoremsSettled TheoremsResting TheoremsDraw TheoremsFuse TheoremsFeed.
From Verif Require Import CasesMpc CasesMisc CasesMore CasesExt CasesAdv CasesLocal CasesSession CasesHash CasesHide CasesEnd CasesStl CasesQuery CasesCount CasesText CasesFrame CasesLoops CasesTight CasesOrders CasesFind CasesForm CasesGame CasesHideGame CasesViewGame CasesBlockGame CasesSuites CasesExtend CasesCompress CasesTests CasesSerde CasesTalk CasesMany CasesDepth CasesWork CasesTarget CasesAttack CasesIdGame CasesLate CasesTransfer CasesNest CasesCosts CasesScript CasesSalt CasesOpen CasesChoice CasesPick CasesOffer CasesPlay CasesSeek CasesShare CasesSettled CasesResting CasesDraw CasesFuse CasesFeed.
Local Open Scope nat_scope.

Theorem C83_types : forall bs rest v,
  (described "Leaf" v bs <-> exists a, dec c_leaf (bs ++ rest) = Some (a, rest) /\ d_leaf a = v) /\
  (described "MerkleNode" v bs <-> exists a, dec c_merkle_node (bs ++ rest) = Some (a, rest) /\ d_node a = v) /\
  (described "MerkleConcealed" v bs <-> exists a, dec c_merkle_concealed (bs ++ rest) = Some (a, rest) /\ d_concealed a = v) /\
  (described "TreeNode" v bs <-> exists a, dec c_tree_node (bs ++ rest) = Some (a, rest) /\ d_tree_node a = v) /\
  (described "MerkleBlock" v bs <-> exists a, dec c_merkle_block (bs ++ rest) = Some (a, rest) /\ d_block a = v) /\
  (described "MerkleProof" v bs <-> exists a, dec c_merkle_proof (bs ++ rest) = Some (a, rest) /\ d_proof a = v) /\
  (described "MerkleTree" v bs <-> exists a, dec c_merkle_tree (bs ++ rest) = Some (a, rest) /\ d_tree a = v) /\
  (described "Method" v bs <-> exists a, dec c_method (bs ++ rest) = Some (a, rest) /\ d_method a = v) /\
  (described "NodeBranching" v bs <-> exists a, dec c_branching (bs ++ rest) = Some (a, rest) /\ d_branching a = v) /\
  (forall name, In name ["Commitment"; "MerkleHash"; "Message"; "ProtocolId"; "StrictHash"]%string ->
     (described name v bs <-> exists a, dec c_b32 (bs ++ rest) = Some (a, rest) /\ d_b32 a = v)).
Proof. exact c83_types. Qed.
Print Assumptions C83_types.
Example C83_types_case :
  described "Leaf" (d_leaf leaf_s) (enc c_leaf leaf_s) /\ described "MerkleBlock" (d_block b1) (enc c_merkle_block b1) /\
  described "MerkleTree" (d_tree t0) (enc c_merkle_tree t0) /\ described "MerkleProof" (d_proof pf1) (enc c_merkle_proof pf1) /\
  length (mt_messages t0) >= 1 /\ length (mt_map t0) >= 1 /\ length (mp_path pf1) >= 1.
Proof. exact c83_types_case. Qed.

Theorem C83_reserved : forall n name val l bs rest (published : In (n, name) reserved_types)
  (accepted : dec (c_reserved n val) (bs ++ rest) = Some (l, rest)), described name (DBytes l) bs.
Proof. exact c83_reserved. Qed.
Print Assumptions C83_reserved.
Example C83_reserved_case : In (4, "ReservedBytes4"%string) reserved_types /\
  dec (c_reserved 4 xaa) ([xaa; xaa; xaa; xaa] ++ [x01]) = Some ([xaa; xaa; xaa; xaa], [x01]).
Proof. exact c83_reserved_case. Qed.

Theorem C83_reserved_narrow : forall n name val (published : In (n, name) reserved_types),
  exists bs, described name (DBytes bs) bs /\ forall rest, dec (c_reserved n val) (bs ++ rest) = None.
Proof. exact c83_reserved_narrow. Qed.
Print Assumptions C83_reserved_narrow.
Example C83_reserved_narrow_case : In (32, "ReservedBytes32"%string) reserved_types.
Proof. exact c83_reserved_narrow_case. Qed.

Theorem C83_vesper_leaf : forall lib v bs rest (encoded : sencodes lib vesper_leaf v bs), dec c_leaf (bs ++ rest) = None.
Proof. exact c83_vesper_leaf. Qed.
Print Assumptions C83_vesper_leaf.
Example C83_vesper_leaf_case : sencodes [] vesper_leaf (d_leaf leaf_s) (x01 :: le 8 7 ++ le 4 2).
Proof. exact c83_vesper_leaf_case. Qed.

Theorem C83_vesper_tags : forall v b bs,
  sencodes commit_verify_sty vesper_leaf v (b :: bs) <->
  exists b', Byte.to_N b' = (Byte.to_N b + 16)%N /\ described "Leaf" v (b' :: bs).
Proof. exact c83_vesper_tags. Qed.
Print Assumptions C83_vesper_tags.
Example C83_vesper_tags_case : described "Leaf" (d_leaf leaf_s) (x11 :: le 8 7 ++ le 4 2) /\ Byte.to_N x11 = (Byte.to_N x01 + 16)%N.
Proof. exact c83_vesper_tags_case. Qed.

Theorem C83_names :
  NoDup (map fst commit_verify_sty) /\
  (forall n name, In (n, name) reserved_types <-> 1 <= n <= 32 /\ name = ("ReservedBytes" ++ num_text (N.of_nat n))%string) /\
  (forall name, In name (map fst commit_verify_sty) <->
     In name ["Std.U5"; "Commitment"; "Leaf"; "MerkleBlock"; "MerkleConcealed"; "MerkleHash"; "MerkleNode"; "MerkleProof";
              "MerkleTree"; "Message"; "Method"; "NodeBranching"; "ProtocolId"; "StrictHash"; "TreeNode"]%string \/
     exists n, In (n, name) reserved_types).
Proof. exact c83_names. Qed.
Print Assumptions C83_names.
Example C83_names_case : In (17, "ReservedBytes17"%string) reserved_types /\ In "Leaf"%string (map fst commit_verify_sty).
Proof. exact c83_names_case. Qed.

Theorem C84_layouts : forall (H : Hasher) md,
  (forall l, layout_lines (commitment_layout md ce_leaf l) = published_layout "Leaf") /\
  (forall n, layout_lines (commitment_layout md ce_merkle_node n) = published_layout "MerkleNode") /\
  (forall c, layout_lines (commitment_layout md ce_concealed c) = published_layout "MerkleConcealed") /\
  (forall b c, block_commit_id md b = Ret c -> layout_lines (commitment_layout md ce_block b) = published_layout "MerkleBlock") /\
  (forall t c, tree_commit_id md t = Ret c -> layout_lines (commitment_layout md ce_tree t) = published_layout "MerkleTree") /\
  (forall name, In name ["Leaf"; "MerkleNode"; "MerkleConcealed"; "MerkleBlock"; "MerkleTree"]%string ->
     exists lines, published_layout name = Some lines).
Proof. exact c84_layouts. Qed.
Print Assumptions C84_layouts.
Example C84_layouts_case :
  (exists c, @block_commit_id toy Debug b1 = Ret c) /\ (exists c, @tree_commit_id toy Debug t0 = Ret c) /\
  published_layout "Leaf" = Some ["commitment MerkleHash, hasher SHA256, tagged urn:ubideco:merkle:node#2024-01-31"%string;
                                  "  serialized Leaf"%string].
Proof. exact c84_layouts_case. Qed.
