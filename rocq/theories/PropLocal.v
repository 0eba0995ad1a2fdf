(** Contents of proofs, malleability, distribution of positions, exact merging, seal witnesses, merklized collections: C72-C77 *)
From Coq Require Import Permutation Sorting.Sorted.
From Verif Require Import Base BaseFacts OrdMap Strict Digest Merkle MpcAtoms MpcTree MpcBlock.
From Verif Require Import Engine EngineIo Schemes Seals Api Vesper Sha256 Ripemd Dumb Text Loops Orders Suites MpcTests Serde Steps Work Costs.
From Verif Require Import SpecHash SpecTree SpecMerkle SpecFull SpecValid SpecCommit SpecDerived SpecBlock.
From Verif Require Import SpecBuoy SpecStrings SpecCodec SpecLayout SpecEngine SpecMisc SpecSha SpecDerive SpecLocal SpecSession SpecRipemd SpecEnd Stl SpecStl SpecQuery SpecCount SpecText SpecOrders SpecFind SpecForm SpecGame SpecHideGame SpecViewGame SpecBlockGame SpecSuites SpecExtend SpecCompress SpecTests SpecSerde SpecTalk SpecMany SpecDepth SpecTarget SpecIdGame SpecLate SpecTransfer SpecNest SpecScript SpecSalt SpecOpen SpecChoice SpecPick SpecOffer SpecPlay SpecSeek SpecShare SpecSettled SpecResting SpecDraw SpecFuse SpecFeed.
From Verif Require Import TheoremsMpc TheoremsBlock TheoremsMerkle TheoremsMisc TheoremsMore TheoremsExt TheoremsAdv TheoremsLocal TheoremsSession TheoremsHash TheoremsHide TheoremsEnd TheoremsStl TheoremsQuery TheoremsCount TheoremsText TheoremsFrame TheoremsLoops TheoremsTight TheoremsOrders TheoremsFind TheoremsForm TheoremsGame TheoremsHideGame TheoremsViewGame TheoremsBlockGame TheoremsSuites TheoremsExtend TheoremsCompress TheoremsTests TheoremsSerde TheoremsTalk TheoremsMany TheoremsDepth TheoremsWork TheoremsTarget TheoremsAttack TheoremsIdGame TheoremsLate TheoremsTransfer TheoremsNest TheoremsCosts TheoremsScript TheoremsSalt TheoremsOpen TheoremsChoice TheoremsPick TheoremsOffer TheoremsPlay TheoremsSeek TheoremsShare TheoremsSettled TheoremsResting TheoremsDraw TheoremsFuse TheoremsFeed.
From Verif Require Import CasesMpc CasesMisc CasesMore CasesExt CasesAdv CasesLocal CasesSession CasesHash CasesHide CasesEnd CasesStl CasesQuery CasesCount CasesText CasesFrame CasesLoops CasesTight CasesOrders CasesFind CasesForm CasesGame CasesHideGame CasesViewGame CasesBlockGame CasesSuites CasesExtend CasesCompress CasesTests CasesSerde CasesTalk CasesMany CasesDepth CasesWork CasesTarget CasesAttack CasesIdGame CasesLate CasesTransfer CasesNest CasesCosts CasesScript CasesSalt CasesOpen CasesChoice CasesPick CasesOffer CasesPlay CasesSeek CasesShare CasesSettled CasesResting CasesDraw CasesFuse CasesFeed.
Local Open Scope nat_scope.

Theorem C72_contents : forall (H : Hasher) md src rng t b pid msg
  (valid : valid_source src) (made : try_commit src rng = Ret (Ok t)) (from_tree : derived md t b)
  (revealed : In (pid, msg) (known_leaves (mb_cross_section b))),
  let pos := s_pos pid (mt_cofactor t) (mt_depth t) in
  to_merkle_proof md b pid = Ret (Ok (MProof (ms_method src) pos (mt_cofactor t) (tree_aside t pos))).
Proof. exact c72_contents. Qed.
Print Assumptions C72_contents.
Example C72_contents_case : valid_source src0 /\ try_commit src0 None = Ret (Ok t0) /\ @derived toy Debug t0 (@block_of_tree toy t0) /\
  In (p2, m2) (known_leaves (mb_cross_section (@block_of_tree toy t0))) /\
  @tree_aside toy t0 2 = mp_path pf2 /\ length (mp_path pf2) = 2.
Proof. exact c72_contents_case. Qed.

Theorem C72_own : forall (H : Hasher) md src src' rng rng' t t' q m m'
  (valid : valid_source src) (valid' : valid_source src') (one_changed : differ_at src src' q)
  (made : try_commit src rng = Ret (Ok t)) (made' : try_commit src' rng' = Ret (Ok t'))
  (same_entropy : mt_entropy t = mt_entropy t')
  (has : In (q, m) (ms_messages src)) (has' : In (q, m') (ms_messages src')),
  exists pf, to_merkle_proof md (block_of_tree t) q = Ret (Ok pf) /\ to_merkle_proof md (block_of_tree t') q = Ret (Ok pf).
Proof. exact c72_own. Qed.
Print Assumptions C72_own.
Example C72_own_case : valid_source src0 /\ valid_source srcx /\ differ_at src0 srcx p1 /\
  try_commit src0 None = Ret (Ok t0) /\ try_commit srcx None = Ret (Ok tx) /\ mt_entropy t0 = mt_entropy tx /\
  In (p1, m1) (ms_messages src0) /\ In (p1, m2) (ms_messages srcx) /\
  @to_merkle_proof toy Debug (@block_of_tree toy t0) p1 = Ret (Ok pf1) /\
  @to_merkle_proof toy Debug (@block_of_tree toy tx) p1 = Ret (Ok pf1).
Proof. exact c72_own_case. Qed.

Theorem C72_other : forall (H : Hasher) md src src' rng rng' t t' p x q m m'
  (valid : valid_source src) (valid' : valid_source src') (one_changed : differ_at src src' q)
  (made : try_commit src rng = Ret (Ok t)) (made' : try_commit src' rng' = Ret (Ok t'))
  (same_entropy : mt_entropy t = mt_entropy t')
  (has : In (q, m) (ms_messages src)) (has' : In (q, m') (ms_messages src')) (changed : m <> m')
  (another : p <> q) (member : In (p, x) (ms_messages src)),
  exists pf pf' l,
    to_merkle_proof md (block_of_tree t) p = Ret (Ok pf) /\ to_merkle_proof md (block_of_tree t') p = Ret (Ok pf') /\
    mp_method pf = mp_method pf' /\ mp_pos pf = mp_pos pf' /\ mp_cofactor pf = mp_cofactor pf' /\
    length (mp_path pf) = length (mp_path pf') /\
    part_at (length (mp_path pf)) (mp_pos pf) (s_pos q (mp_cofactor pf) (length (mp_path pf))) l /\
    (forall l', l' <> l -> nth_error (mp_path pf) l' = nth_error (mp_path pf') l') /\
    (nth_error (mp_path pf) l <> nth_error (mp_path pf') l \/ collision_in (tree_pre t ++ tree_pre t')).
Proof. exact c72_other. Qed.
Print Assumptions C72_other.
Example C72_other_case : valid_source src0 /\ valid_source srcx /\ differ_at src0 srcx p1 /\
  try_commit src0 None = Ret (Ok t0) /\ try_commit srcx None = Ret (Ok tx) /\ mt_entropy t0 = mt_entropy tx /\
  In (p1, m1) (ms_messages src0) /\ In (p1, m2) (ms_messages srcx) /\ m1 <> m2 /\ p2 <> p1 /\ In (p2, m2) (ms_messages src0) /\
  part_at 2 2 1 0 /\
  exists a b c, a <> b /\ @to_merkle_proof toy Debug (@block_of_tree toy t0) p2 = Ret (Ok (MProof Sha256t 2 0 [a; c])) /\
    @to_merkle_proof toy Debug (@block_of_tree toy tx) p2 = Ret (Ok (MProof Sha256t 2 0 [b; c])).
Proof. exact c72_other_case. Qed.

Theorem C73_proof_bytes : forall (H : Hasher) md1 md2 bs1 bs2 pf1 pf2 pid m1 m2 c
  (decoded1 : dec c_merkle_proof bs1 = Some (pf1, [])) (decoded2 : dec c_merkle_proof bs2 = Some (pf2, []))
  (conv1 : convolve md1 pf1 pid m1 = Ret (Ok c)) (conv2 : convolve md2 pf2 pid m2 = Ret (Ok c)),
  (bs1 = bs2 /\ m1 = m2) \/ collision_in (proof_pre pf1 pid m1 ++ proof_pre pf2 pid m2).
Proof. exact c73_proof_bytes. Qed.
Print Assumptions C73_proof_bytes.
Example C73_proof_bytes_case : exists bs, dec c_merkle_proof bs = Some (pf1, []) /\ length bs = 72 /\
  @convolve toy Debug pf1 p1 m1 = Ret (Ok c0) /\
  dec c_merkle_proof (bs ++ [x00]) = Some (pf1, [x00]).
Proof. exact c73_proof_bytes_case. Qed.

Theorem C73_block_bytes : forall (H : Hasher) md bs1 bs2 b1 b2 t1 t2 c
  (decoded1 : dec c_merkle_block bs1 = Some (b1, [])) (decoded2 : dec c_merkle_block bs2 = Some (b2, []))
  (wf1 : block_tree b1 t1) (wf2 : block_tree b2 t2) (max1 : pmaximal t1) (max2 : pmaximal t2)
  (id1 : block_commit_id md b1 = Ret c) (id2 : block_commit_id md b2 = Ret c)
  (same : forall x, In x (pleaves_at (mb_depth b1) 0 0 t1) <-> In x (pleaves_at (mb_depth b2) 0 0 t2))
  (entropy : mb_entropy b1 = mb_entropy b2),
  bs1 = bs2 \/
  collision_in (pcommit_pre (mb_depth b1) (mb_cofactor b1) t1 ++ pcommit_pre (mb_depth b2) (mb_cofactor b2) t2).
Proof. exact c73_block_bytes. Qed.
Print Assumptions C73_block_bytes.
Example C73_block_bytes_case : exists bs, dec c_merkle_block bs = Some (b1, []) /\ block_tree b1 pt1 /\ pmaximal pt1 /\
  @block_commit_id toy Debug b1 = Ret c0.
Proof. exact c73_block_bytes_case. Qed.

Theorem C73_entropy_refuted : forall (H : Hasher), exists bs1 bs2 b1 b2 c,
  bs1 <> bs2 /\ dec c_merkle_block bs1 = Some (b1, []) /\ dec c_merkle_block bs2 = Some (b2, []) /\
  wf_block b1 /\ wf_block b2 /\ known_leaves (mb_cross_section b1) = known_leaves (mb_cross_section b2) /\
  block_commit_id Debug b1 = Ret c /\ block_commit_id Debug b2 = Ret c.
Proof. exact c73_entropy_refuted. Qed.
Print Assumptions C73_entropy_refuted.

Theorem C74_even : forall cofactor D i (deep : D <= 31),
  let usable := N.max 1 (2 ^ N.of_nat D - cofactor) in
  (i < usable)%N ->
  exists (n : N) (ids : N -> bytes32),
    (2 ^ 256 / usable <= n <= 2 ^ 256 / usable + 1)%N /\
    (forall k, (k < n)%N -> protocol_id_pos (ids k) cofactor D = i) /\
    (forall k k', (k < n)%N -> (k' < n)%N -> ids k = ids k' -> k = k') /\
    (forall pid, protocol_id_pos pid cofactor D = i -> exists k, (k < n)%N /\ pid = ids k).
Proof. exact c74_even. Qed.
Print Assumptions C74_even.
Example C74_even_case : 2 <= 31 /\ (2 < N.max 1 (2 ^ N.of_nat 2 - 1))%N /\
  protocol_id_pos (b32_of_N 5) 1 2 = 2%N /\ protocol_id_pos (b32_of_N 6) 1 2 = 0%N.
Proof. exact c74_even_case. Qed.

Theorem C74_unused : forall pid cofactor D (deep : D <= 31) (some : (cofactor < 2 ^ N.of_nat D)%N),
  (protocol_id_pos pid cofactor D < 2 ^ N.of_nat D - cofactor)%N.
Proof. exact c74_unused. Qed.
Print Assumptions C74_unused.
Example C74_unused_case : 3 <= 31 /\ (5 < 2 ^ N.of_nat 3)%N /\ protocol_id_pos (b32_of_N 8) 5 3 = 2%N.
Proof. exact c74_unused_case. Qed.

Theorem C74_unused_slots : forall (H : Hasher) src rng t i
  (valid : valid_source src) (made : try_commit src rng = Ret (Ok t))
  (beyond : (2 ^ N.of_nat (mt_depth t) - mt_cofactor t <= i)%N),
  om_get N.ltb i (mt_map t) = None.
Proof. exact c74_unused_slots. Qed.
Print Assumptions C74_unused_slots.
Example C74_unused_slots_case : exists src t, valid_source src /\ try_commit src None = Ret (Ok t) /\
  mt_cofactor t = 1%N /\ (2 ^ N.of_nat (mt_depth t) - mt_cofactor t <= 3)%N /\ om_get N.ltb 3%N (mt_map t) = None /\
  length (mt_map t) = 2.
Proof. exact c74_unused_slots_case. Qed.

Theorem C74_low_bytes : forall p q D (deep : D <= 31) (low : firstn 4 (b32 p) = firstn 4 (b32 q)),
  protocol_id_pos p 0 D = protocol_id_pos q 0 D.
Proof. exact c74_low_bytes. Qed.
Print Assumptions C74_low_bytes.
Example C74_low_bytes_case : let p := b32_of_N 7 in let q := b32_of_N (7 + 2 ^ 200) in
  firstn 4 (b32 p) = firstn 4 (b32 q) /\ p <> q /\ protocol_id_pos p 0 5 = 7%N /\ protocol_id_pos q 0 5 = 7%N /\
  protocol_id_pos p 1 5 <> protocol_id_pos q 1 5.
Proof. exact c74_low_bytes_case. Qed.

Theorem C75_frontiers : forall (H : Hasher) md b1 b2 t1 t2 c
  (valid1 : valid_block b1) (valid2 : valid_block b2)
  (frontier1 : mb_cross_section b1 = flatten 0 t1) (leaves1 : pwf_loose (mb_depth b1) 0 t1)
  (frontier2 : mb_cross_section b2 = flatten 0 t2) (leaves2 : pwf_loose (mb_depth b2) 0 t2)
  (id1 : block_commit_id md b1 = Ret c) (id2 : block_commit_id md b2 = Ret c),
  (wf_block b1 /\ wf_block b2 /\ exists b n, merge_reveal md b1 b2 = Ret (b, Ok n)) \/
  (~ (wf_block b1 /\ wf_block b2) /\ exists p, merge_reveal md b1 b2 = Panic p) \/
  collision_in (pcommit_pre (mb_depth b1) (mb_cofactor b1) t1 ++ pcommit_pre (mb_depth b2) (mb_cofactor b2) t2).
Proof. exact c75_frontiers. Qed.
Print Assumptions C75_frontiers.
Example C75_frontiers_case :
  (valid_block b1 /\ valid_block b3 /\ mb_cross_section b1 = flatten 0 pt1 /\ pwf_loose (mb_depth b1) 0 pt1 /\
   mb_cross_section b3 = flatten 0 pt3 /\ pwf_loose (mb_depth b3) 0 pt3 /\
   @block_commit_id toy Debug b1 = Ret c0 /\ @block_commit_id toy Debug b3 = Ret c0 /\ exists n, @merge_reveal toy Debug b1 b3 = Ret (b13, Ok n)) /\
  (valid_block bd /\ mb_cross_section bd = flatten 0 ptd /\ pwf_loose (mb_depth bd) 0 ptd /\
   exists c p, @block_commit_id toy Debug bd = Ret c /\ @merge_reveal toy Debug bd bd = Panic p).
Proof. exact c75_frontiers_case. Qed.

Theorem C75_debug : forall (H : Hasher) b1 b2 (valid1 : valid_block b1) (valid2 : valid_block b2),
  ((exists b n, merge_reveal Debug b1 b2 = Ret (b, Ok n)) <->
   wf_block b1 /\ wf_block b2 /\ exists c, block_commit_id Debug b1 = Ret c /\ block_commit_id Debug b2 = Ret c) \/
  exists t1 t2, mb_cross_section b1 = flatten 0 t1 /\ mb_cross_section b2 = flatten 0 t2 /\
    collision_in (pcommit_pre (mb_depth b1) (mb_cofactor b1) t1 ++ pcommit_pre (mb_depth b2) (mb_cofactor b2) t2).
Proof. exact c75_debug. Qed.
Print Assumptions C75_debug.
Example C75_debug_case : valid_block b1 /\ valid_block b3 /\ wf_block b1 /\ wf_block b3 /\
  @block_commit_id toy Debug b1 = Ret c0 /\ @block_commit_id toy Debug b3 = Ret c0.
Proof. exact c75_debug_case. Qed.

Theorem C75_refusal : forall (H : Hasher) md b1 b2 b e,
  merge_reveal md b1 b2 = Ret (b, Err e) <->
  exists c1 c2, block_commit_id md b1 = Ret c1 /\ block_commit_id md b2 = Ret c2 /\ c1 <> c2 /\
    b = b1 /\ e = UnrelatedBlocks c1 c2.
Proof. exact c75_refusal. Qed.
Print Assumptions C75_refusal.
Example C75_refusal_case : @block_commit_id toy Debug b0 = Ret c0 /\ @block_commit_id toy Debug b0' = Ret c0' /\ c0 <> c0' /\
  @merge_reveal toy Debug b0 b0' = Ret (b0, Err (UnrelatedBlocks c0 c0')).
Proof. exact c75_refusal_case. Qed.

Theorem C76_lawful : forall Pub Cli (cp : codec Pub) (cc : codec Cli) vp vc
  (published : lawful cp vp) (client : lawful cc vc),
  lawful (c_seal_witness cp cc) (fun w => vp (fst w) /\ vc (snd w)).
Proof. exact c76_lawful. Qed.
Print Assumptions C76_lawful.
Example C76_lawful_case : lawful (c_le 1) (fun v => (v < 256 ^ N.of_nat 1)%N) /\ lawful c_merkle_proof valid_proof /\
  exists bs, dec (c_seal_witness (c_le 1) c_merkle_proof) (x05 :: bs) = Some (witness_new 5%N pf1, []).
Proof. exact c76_lawful_case. Qed.

Theorem C76_layout : forall Pub Cli (cp : codec Pub) (cc : codec Cli) pub cli,
  enc (c_seal_witness cp cc) (witness_new pub cli) = enc cp pub ++ enc cc cli.
Proof. exact c76_layout. Qed.
Print Assumptions C76_layout.
Example C76_layout_case : enc (c_seal_witness (c_le 1) c_b32) (witness_new 5%N p1) = x05 :: b32 p1.
Proof. exact c76_layout_case. Qed.

Theorem C76_one_witness : forall (H : Hasher) Seal Pub PubId PubErr CliErr
    (P : seal_protocol Seal bytes32 Pub merkle_proof bytes32 PubId PubErr CliErr) (cp : codec Pub) vp
    md pid bs1 bs2 pub pf1 pf2 seals1 seals2 msg1 msg2 u1 u2
  (published : lawful cp vp)
  (client : forall w x c, sl_convolve P w x = Ok c -> convolve md w pid x = Ret (Ok c))
  (one_proof : forall p q v w, sl_verify_commitment P pub p = Ok v -> sl_verify_commitment P pub q = Ok w -> p = q)
  (decoded1 : dec (c_seal_witness cp c_merkle_proof) bs1 = Some (witness_new pub pf1, []))
  (decoded2 : dec (c_seal_witness cp c_merkle_proof) bs2 = Some (witness_new pub pf2, []))
  (closed1 : verify_seals_closing P (witness_new pub pf1) seals1 msg1 = Ok u1)
  (closed2 : verify_seals_closing P (witness_new pub pf2) seals2 msg2 = Ok u2),
  (bs1 = bs2 /\ msg1 = msg2) \/ collision_in (proof_pre pf1 pid msg1 ++ proof_pre pf2 pid msg2).
Proof. exact c76_one_witness. Qed.
Print Assumptions C76_one_witness.
Example C76_one_witness_case : exists bs,
  lawful c_b32 (fun _ => True) /\
  (forall w x c, sl_convolve pub_protocol w x = Ok c -> @convolve toy Debug w p1 x = Ret (Ok c)) /\
  (forall p q v w, sl_verify_commitment pub_protocol c0 p = Ok v -> sl_verify_commitment pub_protocol c0 q = Ok w -> p = q) /\
  dec (c_seal_witness c_b32 c_merkle_proof) bs = Some (witness_new c0 pf1, []) /\
  verify_seals_closing pub_protocol (witness_new c0 pf1) [1; 2] m1 = Ok tt.
Proof. exact c76_one_witness_case. Qed.

Theorem C76_report : forall Seal Msg Pub Cli Proof PubId PubErr CliErr
    (P : seal_protocol Seal Msg Pub Cli Proof PubId PubErr CliErr) show_seal show_id show_pub show_cli pub cli seals msg e
  (refused : verify_seals_closing P (witness_new pub cli) seals msg = Err e),
  let text := seal_error_text show_seal show_id show_pub show_cli e in
  (exists before s after, seals = before ++ s :: after /\
     (forall x, In x before -> sl_is_included P x msg (pub, cli) = true) /\ sl_is_included P s msg (pub, cli) = false /\
     text = ("seal " ++ show_seal s ++ " is not included in the witness " ++ show_id (sl_pub_id P pub))%string /\
     seal_error_source e = None) \/
  ((forall x, In x seals -> sl_is_included P x msg (pub, cli) = true) /\
   ((exists x, sl_convolve P cli msg = Err x /\ text = show_cli x /\ seal_error_source e = Some (inr x)) \/
    (exists y x, sl_convolve P cli msg = Ok y /\ sl_verify_commitment P pub y = Err x /\ text = show_pub x /\
       seal_error_source e = Some (inl x)))).
Proof. exact c76_report. Qed.
Print Assumptions C76_report.
Example C76_report_case :
  verify_seals_closing list_protocol (witness_new ([1; 2; 3], m1) tt) [1; 4; 5] m1 = Err (SeNotIncluded 4 [1; 2; 3]) /\
  seal_error_text show (fun _ => "w"%string) (fun _ : unit => "pub"%string) (fun e : Empty_set => match e with end)
    (SeNotIncluded 4 [1; 2; 3]) = "seal four is not included in the witness w"%string /\
  verify_seals_closing list_protocol (witness_new ([1; 2; 3], m1) tt) [1; 3] m2 = Err (SePublished tt) /\
  @seal_error_source nat (list nat) unit Empty_set (SePublished tt) = Some (inl tt).
Proof. exact c76_report_case. Qed.

Theorem C77_root : forall (H : Hasher) T (ltb : T -> T -> bool) (id : T -> bytes32) xs r
  (order : StrictOrd ltb) (few : (N.of_nat (length xs) < 2 ^ 32)%N),
  (merklize_leaves id (vec_leaves xs) = Ret r <-> merkle_root_of (map id xs) r) /\
  (merklize_leaves id (set_leaves (set_of ltb xs)) = Ret r <->
   exists l, StronglySorted (fun a b => ltb a b = true) l /\ (forall x, In x l <-> In x xs) /\ merkle_root_of (map id l) r).
Proof. exact c77_root. Qed.
Print Assumptions C77_root.
Example C77_root_case : StrictOrd N.ltb /\ (N.of_nat (length [3; 1; 2; 1]%N) < 2 ^ 32)%N /\
  @merklize_leaves toy N b32_of_N (set_leaves (set_of N.ltb [3; 1; 2; 1]%N)) =
  @merklize toy [b32_of_N 1; b32_of_N 2; b32_of_N 3].
Proof. exact c77_root_case. Qed.

Theorem C77_order : forall (H : Hasher) T (ltb : T -> T -> bool) (id : T -> bytes32) xs ys
  (order : StrictOrd ltb) (same : forall x, In x xs <-> In x ys),
  merklize_leaves id (set_leaves (set_of ltb xs)) = merklize_leaves id (set_leaves (set_of ltb ys)).
Proof. exact c77_order. Qed.
Print Assumptions C77_order.
Example C77_order_case : StrictOrd N.ltb /\ (forall x, In x [3; 1; 2; 1]%N <-> In x [1; 2; 3; 3]%N) /\
  set_of N.ltb [3; 1; 2; 1]%N = [1; 2; 3]%N /\
  @merklize_leaves toy N (fun x => b32_of_N x) (vec_leaves [3; 1; 2]%N) <>
  @merklize_leaves toy N (fun x => b32_of_N x) (vec_leaves [1; 2; 3]%N).
Proof. exact c77_order_case. Qed.

Theorem C77_vector : forall (H : Hasher) T (tag : list byte) (encode : T -> list byte) xs ys r L L'
  (injective : forall a b, encode a = encode b -> a = b) (own_tag : tag <> s_node_tag),
  let id x := HASH (s_pre tag (encode x)) in
  forall (root1 : merklize_leaves id (vec_leaves xs) = Ret r) (root2 : merklize_leaves id (vec_leaves ys) = Ret r)
  (hashed1 : root_hashed (map id xs) L) (hashed2 : root_hashed (map id ys) L'),
  xs = ys \/ collision_in (tag :: map (fun x => s_pre tag (encode x)) (xs ++ ys) ++ L ++ L').
Proof. exact c77_vector. Qed.
Print Assumptions C77_vector.
Example C77_vector_case : exists L L', (forall a b : bytes32, b32 a = b32 b -> a = b) /\ s_commit_tag <> s_node_tag /\
  let id x := @HASH flat (@s_pre flat s_commit_tag (b32 x)) in
  @merklize_leaves flat _ id (vec_leaves [p1; p2]) = Ret cflat /\ @merklize_leaves flat _ id (vec_leaves [p3]) = Ret cflat /\
  @root_hashed flat (map id [p1; p2]) L /\ @root_hashed flat (map id [p3]) L'.
Proof. exact c77_vector_case. Qed.

Theorem C77_set : forall (H : Hasher) T (ltb : T -> T -> bool) (tag : list byte) (encode : T -> list byte) xs ys r L L'
  (order : StrictOrd ltb) (injective : forall a b, encode a = encode b -> a = b) (own_tag : tag <> s_node_tag),
  let id x := HASH (s_pre tag (encode x)) in
  forall (root1 : merklize_leaves id (set_leaves (set_of ltb xs)) = Ret r)
  (root2 : merklize_leaves id (set_leaves (set_of ltb ys)) = Ret r)
  (hashed1 : root_hashed (map id (set_of ltb xs)) L) (hashed2 : root_hashed (map id (set_of ltb ys)) L'),
  (forall x, In x xs <-> In x ys) \/
  collision_in (tag :: map (fun x => s_pre tag (encode x)) (xs ++ ys) ++ L ++ L').
Proof. exact c77_set. Qed.
Print Assumptions C77_set.
Example C77_set_case : exists L L', StrictOrd b32_ltb /\ (forall a b : bytes32, b32 a = b32 b -> a = b) /\ s_commit_tag <> s_node_tag /\
  let id x := @HASH flat (@s_pre flat s_commit_tag (b32 x)) in
  @merklize_leaves flat _ id (set_leaves (set_of b32_ltb [p2; p1; p2])) = Ret cflat /\
  @merklize_leaves flat _ id (set_leaves (set_of b32_ltb [p3])) = Ret cflat /\
  @root_hashed flat (map id (set_of b32_ltb [p2; p1; p2])) L /\ @root_hashed flat (map id (set_of b32_ltb [p3])) L'.
Proof. exact c77_set_case. Qed.

Theorem C77_untagged_refuted : forall (H : Hasher) (a b : bytes32), a <> b -> exists x r,
  merklize_leaves (fun h => h) (set_leaves (set_of b32_ltb [a; b])) = Ret r /\
  merklize_leaves (fun h => h) (set_leaves (set_of b32_ltb [x])) = Ret r /\
  ~ (forall y, In y [a; b] <-> In y [x]).
Proof. exact c77_untagged_refuted. Qed.
Print Assumptions C77_untagged_refuted.
