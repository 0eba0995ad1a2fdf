(** Exclusion, untrusted merges, failing encoders, layouts and ids, derive attributes, checked blocks, nested commitments: C65-C71 *)
From Coq Require Import Permutation Sorting.Sorted.
From Verif Require Import Base BaseFacts OrdMap Strict Digest Merkle MpcAtoms MpcTree MpcBlock.
From Verif Require Import Engine EngineIo Schemes Seals Api Vesper Sha256 Ripemd Dumb Text Loops Orders Suites MpcTests Serde Steps Work Costs.
From Verif Require Import SpecHash SpecTree SpecMerkle SpecFull SpecValid SpecCommit SpecDerived SpecBlock.
From Verif Require Import SpecBuoy SpecStrings SpecCodec SpecLayout SpecEngine SpecMisc SpecSha SpecDerive SpecLocal SpecSession SpecRipemd SpecEnd Stl SpecStl SpecQuery SpecCount SpecText SpecOrders SpecFind SpecForm SpecGame SpecHideGame SpecViewGame SpecBlockGame SpecSuites SpecExtend SpecCompress SpecTests SpecSerde SpecTalk SpecMany SpecDepth SpecTarget SpecIdGame SpecLate SpecTransfer SpecNest SpecScript SpecSalt SpecOpen SpecChoice SpecPick SpecOffer SpecPlay SpecSeek SpecShare SpecSettled SpecResting SpecDraw SpecFuse SpecFeed.
From Verif Require Import TheoremsMpc TheoremsBlock TheoremsMerkle TheoremsMisc TheoremsMore TheoremsExt TheoremsAdv TheoremsLocal TheoremsSession TheoremsHash TheoremsHide TheoremsEnd TheoremsStl TheoremsQuery TheoremsCount TheoremsText TheoremsFrame TheoremsLoops TheoremsTight TheoremsOrders TheoremsFind TheoremsForm TheoremsGame TheoremsHideGame TheoremsViewGame TheoremsBlockGame TheoremsSuites TheoremsExtend TheoremsCompress TheoremsTests TheoremsSerde TheoremsTalk TheoremsMany TheoremsDepth TheoremsWork TheoremsTarget TheoremsAttack TheoremsIdGame TheoremsLate TheoremsTransfer TheoremsNest TheoremsCosts TheoremsScript TheoremsSalt TheoremsOpen TheoremsChoice TheoremsPick TheoremsOffer TheoremsPlay TheoremsSeek TheoremsShare TheoremsSettled TheoremsResting TheoremsDraw TheoremsFuse TheoremsFeed.
From Verif Require Import CasesMpc CasesMisc CasesMore CasesExt CasesAdv CasesLocal CasesSession CasesHash CasesHide CasesEnd CasesStl CasesQuery CasesCount CasesText CasesFrame CasesLoops CasesTight CasesOrders CasesFind CasesForm CasesGame CasesHideGame CasesViewGame CasesBlockGame CasesSuites CasesExtend CasesCompress CasesTests CasesSerde CasesTalk CasesMany CasesDepth CasesWork CasesTarget CasesAttack CasesIdGame CasesLate CasesTransfer CasesNest CasesCosts CasesScript CasesSalt CasesOpen CasesChoice CasesPick CasesOffer CasesPlay CasesSeek CasesShare CasesSettled CasesResting CasesDraw CasesFuse CasesFeed.
Local Open Scope nat_scope.

Theorem C65_parameters : forall (H : Hasher) md1 md2 pf1 pf2 p1 m1 p2 m2 c
  (valid1 : valid_proof pf1) (valid2 : valid_proof pf2)
  (conv1 : convolve md1 pf1 p1 m1 = Ret (Ok c)) (conv2 : convolve md2 pf2 p2 m2 = Ret (Ok c)),
  (length (mp_path pf1) = length (mp_path pf2) /\ mp_cofactor pf1 = mp_cofactor pf2 /\
   mp_method pf1 = mp_method pf2 /\ (mp_pos pf1 = mp_pos pf2 -> pf1 = pf2 /\ p1 = p2 /\ m1 = m2)) \/
  collision_in (proof_pre pf1 p1 m1 ++ proof_pre pf2 p2 m2).
Proof. exact c65_parameters. Qed.
Print Assumptions C65_parameters.
Example C65_parameters_case : valid_proof pf1 /\ valid_proof pf2 /\ p1 <> p2 /\ mp_pos pf1 <> mp_pos pf2 /\
  @convolve toy Debug pf1 p1 m1 = Ret (Ok c0) /\ @convolve toy Release pf2 p2 m2 = Ret (Ok c0).
Proof. exact c65_parameters_case. Qed.

Theorem C65_capacity : forall (H : Hasher) c (xs : list (merkle_proof * (bytes32 * bytes32)))
  (proofs : Forall (fun x => valid_proof (fst x) /\
                             exists md, convolve md (fst x) (fst (snd x)) (snd (snd x)) = Ret (Ok c)) xs)
  (distinct : NoDup (map (fun x => fst (snd x)) xs)),
  (forall x, In x xs -> (N.of_nat (length xs) <= 2 ^ N.of_nat (length (mp_path (fst x))))%N) \/
  collision_in (concat (map (fun x => proof_pre (fst x) (fst (snd x)) (snd (snd x))) xs)).
Proof. exact c65_capacity. Qed.
Print Assumptions C65_capacity.
Example C65_capacity_case :
  Forall (fun x => valid_proof (fst x) /\
                   exists md, @convolve toy md (fst x) (fst (snd x)) (snd (snd x)) = Ret (Ok c0)) [(pf1, (p1, m1)); (pf2, (p2, m2))] /\
  NoDup (map (fun x => fst (snd x)) [(pf1, (p1, m1)); (pf2, (p2, m2))]) /\ length (mp_path pf1) = 2.
Proof. exact c65_capacity_case. Qed.

Theorem C65_exclusion : forall (H : Hasher) md md' b t q p' m' pf p m c
  (wf : block_tree b t) (validp : valid_proof pf)
  (block_id : block_commit_id md b = Ret c) (conv : convolve md' pf p m = Ret (Ok c))
  (leaf : In (q, (p', m')) (pleaves_at (mb_depth b) 0 0 t))
  (slot : q = s_pos p (mb_cofactor b) (mb_depth b)),
  (p' = p /\ m' = m) \/ collision_in (pcommit_pre (mb_depth b) (mb_cofactor b) t ++ proof_pre pf p m).
Proof. exact c65_exclusion. Qed.
Print Assumptions C65_exclusion.
Example C65_exclusion_case : block_tree b1 pt1 /\ valid_proof pf1 /\ p1 <> p5 /\ @block_commit_id flat Debug b1 = Ret cflat /\
  @convolve flat Debug pf1 p5 m2 = Ret (Ok cflat) /\ In (1%N, (p1, m1)) (pleaves_at (mb_depth b1) 0 0 pt1) /\
  1%N = s_pos p5 (mb_cofactor b1) (mb_depth b1) /\
  @block_commit_id toy Debug b1 = Ret c0 /\ @convolve toy Debug pf1 p1 m1 = Ret (Ok c0).
Proof. exact c65_exclusion_case. Qed.

Theorem C66_poison_refuted : forall (H : Hasher) b p m
  (wf : wf_block b) (entropy : match mb_entropy b with Some e => (e < 2 ^ 64)%N | None => True end)
  (deep : 2 <= mb_depth b),
  exists other b' n c, valid_block other /\ block_commit_id Release b = Ret c /\
    merge_reveal Release b other = Ret (b', Ok n) /\ valid_block b' /\ block_commit_id Release b' = Ret c /\
    known_leaves (mb_cross_section b') = known_leaves (mb_cross_section b) ++ [(p, m)].
Proof. exact c66_poison_refuted. Qed.
Print Assumptions C66_poison_refuted.
Example C66_poison_refuted_case : wf_block b0 /\ mb_entropy b0 = Some 7%N /\ 2 <= mb_depth b0 /\
  ~ In (p5, m1) (known_leaves (mb_cross_section b0)).
Proof. exact c66_poison_refuted_case. Qed.

Theorem C66_debug : forall (H : Hasher) md src rng t b other b' n c
  (valid : valid_source src) (made : try_commit src rng = Ret (Ok t)) (tree_id : tree_commit_id md t = Ret c)
  (validb : valid_block b) (valido : valid_block other) (own_id : block_commit_id Debug b = Ret c)
  (merged : merge_reveal Debug b other = Ret (b', Ok n)),
  (forall p m, In (p, m) (known_leaves (mb_cross_section b')) -> In (p, m) (ms_messages src)) \/
  exists pt, block_tree b' pt /\ collision_in (pcommit_pre (mb_depth b') (mb_cofactor b') pt ++ tree_pre t).
Proof. exact c66_debug. Qed.
Print Assumptions C66_debug.
Example C66_debug_case : valid_source src0 /\ try_commit src0 None = Ret (Ok t0) /\ @tree_commit_id toy Debug t0 = Ret c0 /\
  valid_block b1 /\ valid_block b3 /\ @block_commit_id toy Debug b1 = Ret c0 /\
  @merge_reveal toy Debug b1 b3 = Ret (b13, Ok 4%N) /\ known_leaves (mb_cross_section b13) = [(p1, m1); (p3, m1)].
Proof. exact c66_debug_case. Qed.

Theorem C66_exact : forall (H : Hasher) md md' src rng t b other b' n c
  (valid : valid_source src) (made : try_commit src rng = Ret (Ok t)) (tree_id : tree_commit_id md t = Ret c)
  (validb : valid_block b) (valido : valid_block other) (own_id : block_commit_id md' b = Ret c)
  (merged : merge_reveal md' b other = Ret (b', Ok n))
  (sum : heights_sum (mb_depth b') (mb_cross_section b') = (2 ^ N.of_nat (mb_depth b'))%N)
  (shallow : Forall (fun x => match x with ConcealedNode d _ => d <= mb_depth b' | _ => True end) (mb_cross_section b')),
  (forall p m, In (p, m) (known_leaves (mb_cross_section b')) -> In (p, m) (ms_messages src)) \/
  exists pt, block_tree b' pt /\ collision_in (pcommit_pre (mb_depth b') (mb_cofactor b') pt ++ tree_pre t).
Proof. exact c66_exact. Qed.
Print Assumptions C66_exact.
Example C66_exact_case : valid_source src0 /\ try_commit src0 None = Ret (Ok t0) /\ @tree_commit_id toy Release t0 = Ret c0 /\
  valid_block b1 /\ valid_block b3 /\ @block_commit_id toy Release b1 = Ret c0 /\
  @merge_reveal toy Release b1 b3 = Ret (b13, Ok 4%N) /\
  heights_sum (mb_depth b13) (mb_cross_section b13) = (2 ^ N.of_nat (mb_depth b13))%N /\
  Forall (fun x => match x with ConcealedNode d _ => d <= mb_depth b13 | _ => True end) (mb_cross_section b13).
Proof. exact c66_exact_case. Qed.

Theorem C67_succeeding : forall (H : Hasher) A md tag idty (T : typed A) v,
  commit md (ce_io tag idty (ty T) (fun v => (enc (ty_codec T) v, true))) v = commit md (derive_strict tag idty T) v.
Proof. exact c67_succeeding. Qed.
Print Assumptions C67_succeeding.
Example C67_succeeding_case : @commit toy N Debug (@ce_io N [] small_ty small_ty small_write) 7%N =
  @commit toy N Debug (@derive_strict N [] small_ty (Typed small_ty (c_le 1))) 7%N /\
  exists e, @commit toy N Debug (@ce_io N [] small_ty small_ty small_write) 7%N = Ret e.
Proof. exact c67_succeeding_case. Qed.

Theorem C67_debug : forall (H : Hasher) A tag idty t (write : A -> io) v
  (fails : snd (write v) = false), forall e, commit Debug (ce_io tag idty t write) v <> Ret e.
Proof. exact c67_debug. Qed.
Print Assumptions C67_debug.
Example C67_debug_case : snd (small_write 101) = false /\
  @commit toy N Debug (@ce_io N [] small_ty small_ty small_write) 101%N = Panic PDebugAssert.
Proof. exact c67_debug_case. Qed.

Theorem C67_release : forall (H : Hasher) A B tag idty idty' t t' f f' (write : A -> io) (write' : B -> io) v w
  (name : has_fqn t f) (name' : has_fqn t' f'),
  commit_id Release (ce_io tag idty t write) v = Ret (HASH (s_pre tag (fst (write v)))) /\
  (commit_id Release (ce_io tag idty t write) v = commit_id Release (ce_io tag idty' t' write') w ->
   fst (write v) = fst (write' w) \/ collision_in [s_pre tag (fst (write v)); s_pre tag (fst (write' w))]).
Proof. exact c67_release. Qed.
Print Assumptions C67_release.
Example C67_release_case : has_fqn small_ty (Fqn "Test" "Small") /\
  @commit_id toy N Release (@ce_io N [] small_ty small_ty small_write) 101%N =
  @commit_id toy N Release (@ce_io N [] small_ty small_ty small_write) 102%N /\
  @commit_id toy N Release (@ce_io N [] small_ty small_ty small_write) 7%N <>
  @commit_id toy N Release (@ce_io N [] small_ty small_ty small_write) 102%N.
Proof. exact c67_release_case. Qed.

Theorem C67_silent_refuted : forall (H : Hasher) tag idty t f, has_fqn t f ->
  exists (write : list byte -> io) v w c, v <> w /\ snd (write v) = false /\ snd (write w) = false /\
    (forall x, length x <= 1 -> write x = (x, true)) /\
    commit_id Release (ce_io tag idty t write) v = Ret c /\ commit_id Release (ce_io tag idty t write) w = Ret c.
Proof. exact c67_silent_refuted. Qed.
Print Assumptions C67_silent_refuted.
Example C67_silent_refuted_case : has_fqn small_ty (Fqn "Test" "Small").
Proof. exact c67_silent_refuted_case. Qed.

Theorem C68_stream : forall (H : Hasher) md md' tag tag' fs gs e e' bss css
  (fed1 : run md fs (engine_new tag) = Ret e) (fed2 : run md' gs (engine_new tag') = Ret e')
  (bytes1 : Forall2 feeds fs bss) (bytes2 : Forall2 feeds gs css),
  (tag = tag' /\ concat bss = concat css -> digest_finish (engine_finish e) = digest_finish (engine_finish e')) /\
  (digest_finish (engine_finish e) = digest_finish (engine_finish e') ->
   (tag = tag' /\ concat bss = concat css) \/
   collision_in [tag; tag'; s_pre tag (concat bss); s_pre tag' (concat css)]).
Proof. exact c68_stream. Qed.
Print Assumptions C68_stream.
Example C68_stream_case : exists e e',
  @run toy Debug [FSerialized u8_ty 1%N; FSerialized u8_ty 2%N] (@engine_new toy (str "t")) = Ret e /\
  @run toy Debug [FSerialized u16_ty 513%N] (@engine_new toy (str "t")) = Ret e' /\
  Forall2 (@feeds toy) [FSerialized u8_ty 1%N; FSerialized u8_ty 2%N] [[x01]; [x02]] /\
  Forall2 (@feeds toy) [FSerialized u16_ty 513%N] [[x01; x02]] /\
  @digest_finish toy (engine_finish e) = @digest_finish toy (engine_finish e') /\ into_layout e <> into_layout e'.
Proof. exact c68_stream_case. Qed.

Theorem C68_layout_refuted : forall (H : Hasher) md tag h t f, has_fqn t f ->
  exists e1 e2 e3, run md [FHash t h] (engine_new tag) = Ret e1 /\ run md [FMerkle t [h]] (engine_new tag) = Ret e2 /\
    run md [FConcealed t c_b32 h] (engine_new tag) = Ret e3 /\
    into_layout e1 <> into_layout e2 /\ into_layout e1 <> into_layout e3 /\ into_layout e2 <> into_layout e3 /\
    digest_finish (engine_finish e1) = digest_finish (engine_finish e2) /\
    digest_finish (engine_finish e1) = digest_finish (engine_finish e3).
Proof. exact c68_layout_refuted. Qed.
Print Assumptions C68_layout_refuted.
Example C68_layout_refuted_case : has_fqn small_ty (Fqn "Test" "Small").
Proof. exact c68_layout_refuted_case. Qed.

Theorem C69_accepts : forall args crate s id,
  container_of args = Ok (ContainerAttr crate s id) <-> attr_says args crate s id.
Proof. exact c69_accepts. Qed.
Print Assumptions C69_accepts.
Example C69_accepts_case : attr_says args_concealed "crate" StrategyStrict "Commitment" /\
  container_of [("strategy", "strict")]%string = Err (AttrMissing "id") /\
  container_of [("strategy", "hash"); ("id", "X")]%string = Err (AttrStrategy "hash") /\
  container_of [("strategy", "strict"); ("id", "X"); ("tag", "Y")]%string = Err (AttrUnknown "tag") /\
  container_of [("id", "X"); ("strategy", "conceal")]%string = Ok (ContainerAttr "commit_verify" StrategyConceal "X").
Proof. exact c69_accepts_case. Qed.

Theorem C69_generates : forall (H : Hasher) A (D : derive_input A) ids args crate s id idty tag md v
  (says : attr_says args crate s id) (resolved : ids id = (idty, tag)),
  exists I, derive_encode D ids args = Ok I /\ ce_tag I = tag /\ ce_idty I = idty /\
  match s with
  | StrategyStrict => forall f, has_fqn (ty (di_self A D)) f -> not_reserved_type (ty (di_self A D)) ->
      commit_id md I v = Ret (HASH (s_pre tag (enc (ty_codec (di_self A D)) v)))
  | StrategyTransparent => forall f, has_fqn (ty (di_inner A D)) f -> not_reserved_type (ty (di_inner A D)) ->
      commit_id md I v = Ret (HASH (s_pre tag (enc (ty_codec (di_inner A D)) (di_as_inner A D v))))
  | StrategyConceal => forall f x y, has_fqn (di_conc_name A D) f ->
      di_conceal A D md v = Ret x -> di_conceal2 A D md x = Ret y ->
      commit_id md I v = Ret (HASH (s_pre tag (enc (di_conc2_codec A D) y)))
  | StrategyMerklize => forall f, has_fqn (di_leaf A D) f -> (N.of_nat (length (di_leaves A D v)) < 2 ^ 32)%N ->
      exists r, merkle_root_of (di_leaves A D v) r /\ commit_id md I v = Ret (HASH (s_pre tag (b32 r)))
  end.
Proof. exact c69_generates. Qed.
Print Assumptions C69_generates.
Example C69_generates_case : attr_says args_concealed "crate" StrategyStrict "Commitment" /\
  exists D : derive_input merkle_concealed, has_fqn (ty (di_self _ D)) (Fqn "CommitVerify" "MerkleConcealed") /\
  not_reserved_type (ty (di_self _ D)) /\
  @derive_encode toy _ D (fun _ => (named "Commitment", commitment_tag)) args_concealed = Ok ce_concealed.
Proof. exact c69_generates_case. Qed.

Theorem C70_gate : forall (H : Hasher) md b (valid : valid_block b),
  wf_block b <->
  (exists c, block_commit_id md b = Ret c) /\
  heights_sum (mb_depth b) (mb_cross_section b) = (2 ^ N.of_nat (mb_depth b))%N /\
  Forall (fun x => match x with ConcealedNode d _ => d <= mb_depth b | _ => True end) (mb_cross_section b).
Proof. exact c70_gate. Qed.
Print Assumptions C70_gate.
Example C70_gate_case : valid_block b1 /\ wf_block b1 /\ @block_commit_id toy Release b1 = Ret c0 /\
  heights_sum (mb_depth b1) (mb_cross_section b1) = 4%N /\
  valid_block b1g /\ @block_commit_id toy Release b1g = Ret c0 /\ heights_sum (mb_depth b1g) (mb_cross_section b1g) = 5%N.
Proof. exact c70_gate_case. Qed.

Theorem C70_debug_gate : forall (H : Hasher) b (valid : valid_block b),
  wf_block b <->
  (exists c, block_commit_id Debug b = Ret c) /\
  Forall (fun x => match x with ConcealedNode d _ => d <= mb_depth b | _ => True end) (mb_cross_section b).
Proof. exact c70_debug_gate. Qed.
Print Assumptions C70_debug_gate.
Example C70_debug_gate_case : valid_block b1 /\ wf_block b1 /\ @block_commit_id toy Debug b1 = Ret c0 /\
  exists x, @block_commit_id toy Debug b1g = Panic x.
Proof. exact c70_debug_gate_case. Qed.

Theorem C70_safe : forall (H : Hasher) md b other (wf : wf_block b) (wf' : wf_block other),
  (exists c, block_commit_id md b = Ret c) /\
  (forall ids, exists b' r, conceal_except md b ids = Ret (b', r) /\ wf_block b') /\
  (forall p, count_occ b32_eq_dec (known_protocol_ids b) p <= 1 -> exists r, to_merkle_proof md b p = Ret r) /\
  ((exists b' r, merge_reveal md b other = Ret (b', r) /\ wf_block b') \/
   exists t t', block_tree b t /\ block_tree other t' /\
     collision_in (pcommit_pre (mb_depth b) (mb_cofactor b) t ++ pcommit_pre (mb_depth other) (mb_cofactor other) t')).
Proof. exact c70_safe. Qed.
Print Assumptions C70_safe.
Example C70_safe_case : wf_block b1 /\ wf_block b3 /\ b1 <> b3.
Proof. exact c70_safe_case. Qed.

Theorem C70_vouched : forall (H : Hasher) md md' b src rng t c
  (wf : wf_block b) (valid : valid_source src) (made : try_commit src rng = Ret (Ok t))
  (block_id : block_commit_id md b = Ret c) (tree_id : tree_commit_id md' t = Ret c),
  (forall p m, In (p, m) (known_leaves (mb_cross_section b)) -> In (p, m) (ms_messages src)) \/
  exists pt, block_tree b pt /\ collision_in (pcommit_pre (mb_depth b) (mb_cofactor b) pt ++ tree_pre t).
Proof. exact c70_vouched. Qed.
Print Assumptions C70_vouched.
Example C70_vouched_case : wf_block b1 /\ valid_source src0 /\ try_commit src0 None = Ret (Ok t0) /\
  @block_commit_id toy Release b1 = Ret c0 /\ @tree_commit_id toy Release t0 = Ret c0 /\
  known_leaves (mb_cross_section b1) = [(p1, m1)].
Proof. exact c70_vouched_case. Qed.

Theorem C71_hash_field : forall (H : Hasher) md md' tag itag fs1 fs2 gs1 gs2 t x y e e' bs cs Lf Lg
  (fed1 : run md (fs1 ++ FHash t (HASH (s_pre itag x)) :: fs2) (engine_new tag) = Ret e)
  (fed2 : run md' (gs1 ++ FHash t (HASH (s_pre itag y)) :: gs2) (engine_new tag) = Ret e')
  (kinds : Forall2 same_kind (fs1 ++ FHash t (HASH (s_pre itag x)) :: fs2) (gs1 ++ FHash t (HASH (s_pre itag y)) :: gs2))
  (same_place : length fs1 = length gs1)
  (bytes1 : Forall2 feeds (fs1 ++ FHash t (HASH (s_pre itag x)) :: fs2) bs)
  (bytes2 : Forall2 feeds (gs1 ++ FHash t (HASH (s_pre itag y)) :: gs2) cs)
  (hashed1 : fields_hashed (fs1 ++ FHash t (HASH (s_pre itag x)) :: fs2) Lf)
  (hashed2 : fields_hashed (gs1 ++ FHash t (HASH (s_pre itag y)) :: gs2) Lg)
  (same : digest_finish (engine_finish e) = digest_finish (engine_finish e')),
  (fs1 = gs1 /\ x = y /\ fs2 = gs2) \/
  collision_in ([s_pre itag x; s_pre itag y] ++ (s_pre tag (concat bs) :: Lf) ++ (s_pre tag (concat cs) :: Lg)).
Proof. exact c71_hash_field. Qed.
Print Assumptions C71_hash_field.
Example C71_hash_field_case :
  let f x := FHash idt (@HASH flat (@s_pre flat (str "inner") x)) in
  exists e, @run flat Debug [FSerialized u8t 5%N; f [x01]] (@engine_new flat (str "tag")) = Ret e /\
    @run flat Debug [FSerialized u8t 5%N; f [x02]] (@engine_new flat (str "tag")) = Ret e /\
    Forall2 same_kind ([FSerialized u8t 5%N] ++ f [x01] :: []) ([FSerialized u8t 5%N] ++ f [x02] :: []) /\
    Forall2 (@feeds flat) ([FSerialized u8t 5%N] ++ f [x01] :: []) [[x05]; b32 cflat] /\
    Forall2 (@feeds flat) ([FSerialized u8t 5%N] ++ f [x02] :: []) [[x05]; b32 cflat] /\
    @fields_hashed flat ([FSerialized u8t 5%N] ++ f [x01] :: []) [] /\
    @fields_hashed flat ([FSerialized u8t 5%N] ++ f [x02] :: []) [] /\
    @digest_finish flat (engine_finish e) = cflat.
Proof. exact c71_hash_field_case. Qed.

Theorem C71_merkle_field : forall (H : Hasher) md md' tag itag fs1 fs2 gs1 gs2 t xs ys e e' bs cs Lf Lg
  (fed1 : run md (fs1 ++ FMerkle t (map (fun x => HASH (s_pre itag x)) xs) :: fs2) (engine_new tag) = Ret e)
  (fed2 : run md' (gs1 ++ FMerkle t (map (fun x => HASH (s_pre itag x)) ys) :: gs2) (engine_new tag) = Ret e')
  (kinds : Forall2 same_kind (fs1 ++ FMerkle t (map (fun x => HASH (s_pre itag x)) xs) :: fs2)
                             (gs1 ++ FMerkle t (map (fun x => HASH (s_pre itag x)) ys) :: gs2))
  (same_place : length fs1 = length gs1)
  (bytes1 : Forall2 feeds (fs1 ++ FMerkle t (map (fun x => HASH (s_pre itag x)) xs) :: fs2) bs)
  (bytes2 : Forall2 feeds (gs1 ++ FMerkle t (map (fun x => HASH (s_pre itag x)) ys) :: gs2) cs)
  (hashed1 : fields_hashed (fs1 ++ FMerkle t (map (fun x => HASH (s_pre itag x)) xs) :: fs2) Lf)
  (hashed2 : fields_hashed (gs1 ++ FMerkle t (map (fun x => HASH (s_pre itag x)) ys) :: gs2) Lg)
  (same : digest_finish (engine_finish e) = digest_finish (engine_finish e')),
  (fs1 = gs1 /\ xs = ys /\ fs2 = gs2) \/
  collision_in ((map (s_pre itag) xs ++ map (s_pre itag) ys) ++ (s_pre tag (concat bs) :: Lf) ++ (s_pre tag (concat cs) :: Lg)).
Proof. exact c71_merkle_field. Qed.
Print Assumptions C71_merkle_field.
Example C71_merkle_field_case :
  let f x := FMerkle idt (map (fun x => @HASH flat (@s_pre flat (str "inner") x)) x) in
  exists e L L', @run flat Debug [f [[x01]; [x02]]] (@engine_new flat (str "tag")) = Ret e /\
    @run flat Debug [f [[x03]; [x04]]] (@engine_new flat (str "tag")) = Ret e /\
    Forall2 same_kind ([] ++ f [[x01]; [x02]] :: []) ([] ++ f [[x03]; [x04]] :: []) /\
    Forall2 (@feeds flat) ([] ++ f [[x01]; [x02]] :: []) [b32 cflat] /\
    Forall2 (@feeds flat) ([] ++ f [[x03]; [x04]] :: []) [b32 cflat] /\
    @fields_hashed flat ([] ++ f [[x01]; [x02]] :: []) L /\
    @fields_hashed flat ([] ++ f [[x03]; [x04]] :: []) L' /\
    @digest_finish flat (engine_finish e) = cflat.
Proof. exact c71_merkle_field_case. Qed.

Theorem C67_calls : forall (H : Hasher) md e,
  (forall A (T : typed A) v,
     commit_to_serialized_io md (ty T) (enc (ty_codec T) v, true) e = commit_to_serialized md T v e) /\
  (forall A (T : typed A) v,
     commit_to_option_io md (ty T) (enc (c_option (ty_codec T)) v, true) e = commit_to_option md T v e) /\
  (forall C t (c : codec C) v,
     commit_to_concealed_io md t (Ret (enc c v, true)) e = commit_to_concealed md t c (Ret v) e) /\
  (forall A (T : typed A) min max l,
     commit_to_linear_io md (Ret ColList) min max (ty T) (enc (c_vec (prefix_len max) min max (ty_codec T)) l, true) e
     = commit_to_linear_list md T min max l e) /\
  (forall A (T : typed A) min max l,
     commit_to_linear_io md (Ret ColSet) min max (ty T) (enc (c_vec (prefix_len max) min max (ty_codec T)) l, true) e
     = commit_to_linear_set md T min max l e) /\
  (forall K V (TK : typed K) (TV : typed V) min max l,
     commit_to_linear_io md (k <- commitment_fqn (ty TK) ;; Ret (ColMap k)) min max (ty TV)
       (enc (c_vec (prefix_len max) min max (c_pair (ty_codec TK) (ty_codec TV))) l, true) e
     = commit_to_linear_map md TK TV min max l e).
Proof. exact c67_calls. Qed.
Print Assumptions C67_calls.
Example C67_calls_case : exists e, commit_to_linear_list Release (Typed (SType "Test" (Some "U8"%string)) (c_le 1)) 1 300 [5%N; 6%N]
    (@engine_new toy (str "tag")) = Ret e /\
  en_layout e = [StCollection ColList (Sizing 1 300) (Fqn "Test" "U8")] /\
  en_hasher e = en_hasher (@engine_new toy (str "tag")) ++ [x02; x00; x05; x06].
Proof. exact c67_calls_case. Qed.

Theorem C67_failing_calls : forall (H : Hasher) t bs e col min max,
  (forall e', commit_to_serialized_io Debug t (bs, false) e <> Ret e' /\ commit_to_option_io Debug t (bs, false) e <> Ret e' /\
     commit_to_concealed_io Debug t (Ret (bs, false)) e <> Ret e' /\
     commit_to_linear_io Debug col min max t (bs, false) e <> Ret e') /\
  commit_to_serialized_io Release t (bs, false) e = commit_to_serialized_io Release t (bs, true) e /\
  commit_to_option_io Release t (bs, false) e = commit_to_option_io Release t (bs, true) e /\
  commit_to_concealed_io Release t (Ret (bs, false)) e = commit_to_concealed_io Release t (Ret (bs, true)) e /\
  commit_to_linear_io Release col min max t (bs, false) e = commit_to_linear_io Release col min max t (bs, true) e.
Proof. exact c67_failing_calls. Qed.
Print Assumptions C67_failing_calls.
Example C67_failing_calls_case :
  exists e, commit_to_linear_io Release (Ret ColList) 1 300 (SType "Test" (Some "U8"%string)) ([x02; x00; x05], false)
    (@engine_new toy (str "tag")) = Ret e /\
  commit_to_linear_io Debug (Ret ColList) 1 300 (SType "Test" (Some "U8"%string)) ([x02; x00; x05], false)
    (@engine_new toy (str "tag")) = Panic PDebugAssert.
Proof. exact c67_failing_calls_case. Qed.
