(** Encodings: C33, C38, C39 *)
From Coq Require Import Permutation Sorting.Sorted.
From Verif Require Import Base BaseFacts OrdMap Strict Digest Merkle MpcAtoms MpcTree MpcBlock.
From Verif Require Import Engine EngineIo Schemes Seals Api Vesper Sha256 Ripemd Dumb Text Loops Orders Suites MpcTests Serde Steps Work Costs.
From Verif Require Import SpecHash SpecTree SpecMerkle SpecFull SpecValid SpecCommit SpecDerived SpecBlock.
From Verif Require Import SpecBuoy SpecStrings SpecCodec SpecLayout SpecEngine SpecMisc SpecSha SpecDerive SpecLocal SpecSession SpecRipemd SpecEnd Stl SpecStl SpecQuery SpecCount SpecText SpecOrders SpecFind SpecForm SpecGame SpecHideGame SpecViewGame SpecBlockGame SpecSuites SpecExtend SpecCompress SpecTests SpecSerde SpecTalk SpecMany SpecDepth SpecTarget SpecIdGame SpecLate SpecTransfer SpecNest SpecScript SpecSalt SpecOpen SpecChoice SpecPick SpecOffer SpecPlay SpecSeek SpecShare SpecSettled SpecResting SpecDraw SpecFuse SpecFeed.
From Verif Require Import TheoremsMpc TheoremsBlock TheoremsMerkle TheoremsMisc TheoremsMore TheoremsExt TheoremsAdv TheoremsLocal TheoremsSession TheoremsHash TheoremsHide TheoremsEnd TheoremsStl TheoremsQuery TheoremsCount TheoremsText TheoremsFrame TheoremsLoops TheoremsTight TheoremsOrders TheoremsFind TheoremsForm TheoremsGame TheoremsHideGame TheoremsViewGame TheoremsBlockGame TheoremsSuites TheoremsExtend TheoremsCompress TheoremsTests TheoremsSerde TheoremsTalk TheoremsMany TheoremsDepth TheoremsWork TheoremsTarget TheoremsAttack TheoremsIdGame TheoremsLate TheoremsTransfer TheoremsNest TheoremsCosts TheoremsScript TheoremsSalt TheoremsOpen TheoremsChoice TheoremsPick TheoremsOffer TheoremsPlay TheoremsSeek TheoremsShare TheoremsSettled TheoremsResting TheoremsDraw TheoremsFuse TheoremsFeed.
From Verif Require Import CasesMpc CasesMisc CasesMore CasesExt CasesAdv CasesLocal CasesSession CasesHash CasesHide CasesEnd CasesStl CasesQuery CasesCount CasesText CasesFrame CasesLoops CasesTight CasesOrders CasesFind CasesForm CasesGame CasesHideGame CasesViewGame CasesBlockGame CasesSuites CasesExtend CasesCompress CasesTests CasesSerde CasesTalk CasesMany CasesDepth CasesWork CasesTarget CasesAttack CasesIdGame CasesLate CasesTransfer CasesNest CasesCosts CasesScript CasesSalt CasesOpen CasesChoice CasesPick CasesOffer CasesPlay CasesSeek CasesShare CasesSettled CasesResting CasesDraw CasesFuse CasesFeed.
Local Open Scope nat_scope.

Theorem C33_roundtrip :
  lawful c_merkle_proof valid_proof /\ lawful c_merkle_block valid_block /\
  lawful c_merkle_tree valid_tree /\ lawful c_merkle_concealed valid_concealed /\
  lawful c_leaf valid_leaf /\ lawful c_merkle_node valid_node /\ lawful c_tree_node valid_tree_node.
Proof. exact c33_roundtrip. Qed.
Print Assumptions C33_roundtrip.
Example C33_roundtrip_case :
  valid_proof pf1 /\ dec c_merkle_proof (enc c_merkle_proof pf1 ++ [x2a]) = Some (pf1, [x2a]) /\
  valid_block b1 /\ dec c_merkle_block (enc c_merkle_block b1) = Some (b1, []) /\
  valid_tree t0 /\ dec c_merkle_tree (enc c_merkle_tree t0) = Some (t0, []) /\
  dec c_merkle_proof [x01] = None /\ dec c_leaf [x12] = None.
Proof. exact c33_roundtrip_case. Qed.

Theorem C33_layout :
  (forall p, enc c_merkle_proof p = l_proof p) /\ (forall b, enc c_merkle_block b = l_block b) /\
  (forall t, enc c_merkle_tree t = l_tree t) /\ (forall c, enc c_merkle_concealed c = l_concealed c) /\
  (forall l, enc c_leaf l = l_leaf l) /\ (forall n, enc c_merkle_node n = l_merkle_node n) /\
  (forall n, enc c_tree_node n = l_node n).
Proof. exact c33_layout. Qed.
Print Assumptions C33_layout.

Theorem C38_stream : forall max k e datas
  (size : prefix_size max k) (max_ok : (max < 2 ^ 32)%N)
  (short : Forall (fun d => (N.of_nat (length d) <= max)%N) datas),
  inputs_with_len max e datas = Ret (e ++ framed k datas).
Proof. exact c38_stream. Qed.
Print Assumptions C38_stream.
Example C38_stream_case : prefix_size 255 1 /\
  inputs_with_len 255 [xaa] [[x01; x02]; []; [x03]] = Ret [xaa; x02; x01; x02; x00; x01; x03].
Proof. exact c38_stream_case. Qed.

Theorem C38_unambiguous : forall max e xs ys s
  (max_ok : (max < 2 ^ 32)%N)
  (short1 : Forall (fun d => (N.of_nat (length d) <= max)%N) xs)
  (short2 : Forall (fun d => (N.of_nat (length d) <= max)%N) ys)
  (fed1 : inputs_with_len max e xs = Ret s) (fed2 : inputs_with_len max e ys = Ret s),
  xs = ys.
Proof. exact c38_unambiguous. Qed.
Print Assumptions C38_unambiguous.
Example C38_unambiguous_case :
  inputs_with_len 255 [] [[x01]; [x02]] <> inputs_with_len 255 [] [[x01; x02]] /\
  Forall (fun d : list byte => (N.of_nat (length d) <= 255)%N) [[x01]; [x02]].
Proof. exact c38_unambiguous_case. Qed.

Theorem C38_max_limit : forall max e d, (2 ^ 32 <= max)%N -> input_with_len max e d = Panic PUnreachable.
Proof. exact c38_max_limit. Qed.
Print Assumptions C38_max_limit.
Example C38_max_limit_case : input_with_len (2 ^ 32) [] [] = Panic PUnreachable /\ input_with_len (2 ^ 32 - 1) [] [] = Ret (repeat x00 4).
Proof. exact c38_max_limit_case. Qed.

Theorem C38_too_long_24 : forall max e d
  (size : (2 ^ 16 <= max < 2 ^ 24)%N) (long : (2 ^ 24 <= N.of_nat (length d) < 2 ^ 32)%N),
  input_with_len max e d = Panic PAssert.
Proof. exact c38_too_long_24. Qed.
Print Assumptions C38_too_long_24.
Example C38_too_long_24_case : let d := repeat x00 (N.to_nat (2 ^ 24)) in (2 ^ 24 <= N.of_nat (length d) < 2 ^ 32)%N.
Proof. exact c38_too_long_24_case. Qed.

Theorem C38_too_long_refuted : forall max k e,
  prefix_size max k -> k = 1 \/ k = 2 \/ k = 4 ->
  exists xs ys s, xs <> ys /\ inputs_with_len max e xs = Ret s /\ inputs_with_len max e ys = Ret s.
Proof. exact c38_too_long_refuted. Qed.
Print Assumptions C38_too_long_refuted.
Example C38_too_long_refuted_case :
  inputs_with_len 255 [] [repeat x00 256] = inputs_with_len 255 [] (repeat [] 257).
Proof. exact c38_too_long_refuted_case. Qed.

Theorem C39_decode : forall len val l a r,
  dec (c_reserved len val) l = Some (a, r) <-> a = repeat val len /\ l = repeat val len ++ r.
Proof. exact c39_decode. Qed.
Print Assumptions C39_decode.
Example C39_decode_case : dec (c_reserved 3 x00) [x00; x00; x00; x07] = Some ([x00; x00; x00], [x07]) /\
  dec (c_reserved 3 x00) [x00; x01; x00; x07] = None /\ dec (c_reserved 3 x00) [x00; x00] = None.
Proof. exact c39_decode_case. Qed.

Theorem C39_from_array : forall len val v,
  (v = repeat val len -> reserved_from len val v = Ret v) /\
  (v <> repeat val len -> reserved_from len val v = Panic PAssert).
Proof. exact c39_from_array. Qed.
Print Assumptions C39_from_array.
Example C39_from_array_case : reserved_from 2 x07 [x07; x07] = Ret [x07; x07] /\ reserved_from 2 x07 [x07; x08] = Panic PAssert.
Proof. exact c39_from_array_case. Qed.

Theorem C39_one_commitment : forall (H : Hasher) len val md v w
  (v_made : reserved_from len val v = Ret v) (w_made : reserved_from len val w = Ret w),
  commit_id md (ce_reserved len val) v = commit_id md (ce_reserved len val) w /\
  commit_id md (ce_reserved len val) v =
    Ret (HASH (s_pre (str "urn:ubideco:strict-types:value-hash#2024-02-10") (repeat val len))).
Proof. exact c39_one_commitment. Qed.
Print Assumptions C39_one_commitment.
Example C39_one_commitment_case : reserved_from 2 x07 [x07; x07] = Ret [x07; x07] /\
  exists h, @commit_id toy (list byte) Debug (@ce_reserved 2 x07) [x07; x07] = Ret h.
Proof. exact c39_one_commitment_case. Qed.

Theorem C39_serde : forall len val,
  (forall v, reserved_from len val v = Ret v -> reserved_deserialize len val (reserved_serialize v) = Ok v) /\
  (forall x v, reserved_deserialize len val x = Ok v -> v = repeat val len /\ reserved_from len val v = Ret v) /\
  (forall x, (exists v, reserved_deserialize len val x = Ok v) <-> x <> SerdeOther).
Proof. exact c39_serde. Qed.
Print Assumptions C39_serde.
Example C39_serde_case : reserved_from 2 x07 [x07; x07] = Ret [x07; x07] /\
  reserved_deserialize 2 x07 (reserved_serialize [x07; x07]) = Ok [x07; x07] /\ reserved_deserialize 2 x07 SerdeOther = Err tt.
Proof. exact c39_serde_case. Qed.

Theorem C33_equality :
  (forall a b, b32_eqb a b = true <-> a = b) /\ (forall a b, method_eqb a b = true <-> a = b) /\
  (forall a b, tree_node_eqb a b = true <-> a = b) /\ (forall a b, merkle_tree_eqb a b = true <-> a = b).
Proof. exact c33_equality. Qed.
Print Assumptions C33_equality.
Example C33_equality_case : tree_node_eqb (CommitmentLeaf p1 m1) (CommitmentLeaf p1 m2) = false /\
  tree_node_eqb (CommitmentLeaf p1 m1) (CommitmentLeaf p1 m1) = true /\
  tree_node_eqb (ConcealedNode 2 p1) (ConcealedNode 3 p1) = false.
Proof. exact c33_equality_case. Qed.

Theorem C38_every : forall max k e d (size : prefix_size max k) (max_ok : (max < 2 ^ 32)%N),
  let n := N.of_nat (length d) in
  (k <> 3 -> input_with_len max e d = Ret (e ++ le k n ++ d)) /\
  (k = 3 -> (n mod 2 ^ 32 < 2 ^ 24)%N -> input_with_len max e d = Ret (e ++ le 3 (n mod 2 ^ 32) ++ d)) /\
  (k = 3 -> (2 ^ 24 <= n mod 2 ^ 32)%N -> input_with_len max e d = Panic PAssert).
Proof. exact c38_every. Qed.
Print Assumptions C38_every.
Example C38_every_case : prefix_size 255 1 /\ input_with_len 255 [] (repeat x07 256) = Ret (x00 :: repeat x07 256) /\
  prefix_size (2 ^ 16) 3 /\ input_with_len (2 ^ 16) [] [x07] = Ret [x01; x00; x00; x07] /\
  (N.of_nat (length (repeat x00 (N.to_nat (2 ^ 32 + 5)))) mod 2 ^ 32 < 2 ^ 24)%N /\
  (2 ^ 24 <= N.of_nat (length (repeat x00 (N.to_nat (2 ^ 25)))) mod 2 ^ 32)%N.
Proof. exact c38_every_case. Qed.

Theorem C38_too_long_24_refuted : forall max e, prefix_size max 3 ->
  exists xs ys s, xs <> ys /\ inputs_with_len max e xs = Ret s /\ inputs_with_len max e ys = Ret s.
Proof. exact c38_too_long_24_refuted. Qed.
Print Assumptions C38_too_long_24_refuted.
Example C38_too_long_24_refuted_case : prefix_size (2 ^ 20) 3.
Proof. exact c38_too_long_24_refuted_case. Qed.
