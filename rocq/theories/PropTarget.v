(** Forging openings of commitments made beforehand: C105 *)
From Coq Require Import Permutation Sorting.Sorted.
From Verif Require Import Base BaseFacts OrdMap Strict Digest Merkle MpcAtoms MpcTree MpcBlock.
From Verif Require Import Engine EngineIo Schemes Seals Api Vesper Sha256 Ripemd Dumb Text Loops Orders Suites MpcTests Serde Steps Work Costs.
From Verif Require Import SpecHash SpecTree SpecMerkle SpecFull SpecValid SpecCommit SpecDerived SpecBlock.
From Verif Require Import SpecBuoy SpecStrings SpecCodec SpecLayout SpecEngine SpecMisc SpecSha SpecDerive SpecLocal SpecSession SpecRipemd SpecEnd Stl SpecStl SpecQuery SpecCount SpecText SpecOrders SpecFind SpecForm SpecGame SpecHideGame SpecViewGame SpecBlockGame SpecSuites SpecExtend SpecCompress SpecTests SpecSerde SpecTalk SpecMany SpecDepth SpecTarget SpecIdGame SpecLate SpecTransfer SpecNest SpecScript SpecSalt SpecOpen SpecChoice SpecPick SpecOffer SpecPlay SpecSeek SpecShare SpecSettled SpecResting SpecDraw SpecFuse SpecFeed.
From Verif Require Import TheoremsMpc TheoremsBlock TheoremsMerkle TheoremsMisc TheoremsMore TheoremsExt TheoremsAdv TheoremsLocal TheoremsSession TheoremsHash TheoremsHide TheoremsEnd TheoremsStl TheoremsQuery TheoremsCount TheoremsText TheoremsFrame TheoremsLoops TheoremsTight TheoremsOrders TheoremsFind TheoremsForm TheoremsGame TheoremsHideGame TheoremsViewGame TheoremsBlockGame TheoremsSuites TheoremsExtend TheoremsCompress TheoremsTests TheoremsSerde TheoremsTalk TheoremsMany TheoremsDepth TheoremsWork TheoremsTarget TheoremsAttack TheoremsIdGame TheoremsLate TheoremsTransfer TheoremsNest TheoremsCosts TheoremsScript TheoremsSalt TheoremsOpen TheoremsChoice TheoremsPick TheoremsOffer TheoremsPlay TheoremsSeek TheoremsShare TheoremsSettled TheoremsResting TheoremsDraw TheoremsFuse TheoremsFeed.
From Verif Require Import CasesMpc CasesMisc CasesMore CasesExt CasesAdv CasesLocal CasesSession CasesHash CasesHide CasesEnd CasesStl CasesQuery CasesCount CasesText CasesFrame CasesLoops CasesTight CasesOrders CasesFind CasesForm CasesGame CasesHideGame CasesViewGame CasesBlockGame CasesSuites CasesExtend CasesCompress CasesTests CasesSerde CasesTalk CasesMany CasesDepth CasesWork CasesTarget CasesAttack CasesIdGame CasesLate CasesTransfer CasesNest CasesCosts CasesScript CasesSalt CasesOpen CasesChoice CasesPick CasesOffer CasesPlay CasesSeek CasesShare CasesSettled CasesResting CasesDraw CasesFuse CasesFeed.
Local Open Scope nat_scope.

Theorem C105_extract : forall (H : Hasher) md src rng t c
  (valid : valid_source src) (made : try_commit src rng = Ret (Ok t)) (tree_id : tree_commit_id md t = Ret c),
  (forall md' pf pid msg (validp : valid_proof pf) (conv : convolve md' pf pid msg = Ret (Ok c)),
     (In (pid, msg) (ms_messages src) /\ to_merkle_proof md' (block_of_tree t) pid = Ret (Ok pf)) \/
     second_in (tree_pre t) (proof_pre pf pid msg)) /\
  (forall b (validb : valid_block b) (block_id : block_commit_id Debug b = Ret c),
     (forall p m, In (p, m) (known_leaves (mb_cross_section b)) -> In (p, m) (ms_messages src)) \/
     exists pt, mb_cross_section b = flatten 0 pt /\ pwf_loose (mb_depth b) 0 pt /\
       second_in (tree_pre t) (pcommit_pre (mb_depth b) (mb_cofactor b) pt)) /\
  (forall md' src' rng' t' (valid' : valid_source src') (made' : try_commit src' rng' = Ret (Ok t'))
     (tree_id' : tree_commit_id md' t' = Ret c),
     ms_messages src' = ms_messages src \/ second_in (tree_pre t) (tree_pre t')).
Proof. exact c105_extract. Qed.
Print Assumptions C105_extract.
Example C105_extract_case : valid_source src0' /\ try_commit src0' None = Ret (Ok t0') /\ @tree_commit_id flat Debug t0' = Ret cflat /\
  (valid_proof pf1 /\ @convolve flat Debug pf1 p1 m1 = Ret (Ok cflat) /\ ~ In (p1, m1) (ms_messages src0')) /\
  (valid_block b1 /\ @block_commit_id flat Debug b1 = Ret cflat /\ In (p1, m1) (known_leaves (mb_cross_section b1))) /\
  (valid_source src0 /\ try_commit src0 None = Ret (Ok t0) /\ @tree_commit_id flat Debug t0 = Ret cflat /\ ms_messages src0 <> ms_messages src0').
Proof. exact c105_extract_case. Qed.

Theorem C105_second : forall n U A C (first : prog A) (later : A -> prog C) j q
  (strings : universe n U) (before : modest n j first) (after : forall a, modest n q (later a)),
  rare U (fun H => @second_in H (asked H first) (asked H first ++ asked H (later (exec H first))))
       (N.of_nat j * N.of_nat (j - 1) + 2 * N.of_nat j * N.of_nat q) (2 ^ 257).
Proof. exact c105_second. Qed.
Print Assumptions C105_second.
Example C105_second_case : exists U, universe 3 U /\ modest 3 1 (Ask [x00] Done) /\
  (forall a, modest 3 1 (Ask (if b32_eqb a (b32_fill x00) then [x01] else [x00; x00]) Done)) /\
  @second_in flat (asked flat (Ask [x00] Done)) (asked flat (Ask [x00] Done) ++
    asked flat (Ask (if b32_eqb (exec flat (Ask [x00] Done)) (b32_fill x00) then [x01] else [x00; x00]) Done)).
Proof. exact c105_second_case. Qed.

Theorem C105_proof : forall n U q D made (adversary : prog (merkle_proof * bytes32 * bytes32))
  (strings : universe n U) (short : 162 <= n) (few : modest n q adversary) (before : made_before D made),
  let K := N.of_nat (length made * (2 * 2 ^ D + 2)) in
  rare U (fun H => let '(pf, pid, msg) := exec H adversary in
            valid_proof pf /\ exists src t md c, committed H made src t c /\ @convolve H md pf pid msg = Ret (Ok c) /\
              (~ In (pid, msg) (ms_messages src) \/ @to_merkle_proof H md (block_of_tree t) pid <> Ret (Ok pf)))
       (K * (K - 1) + 2 * K * N.of_nat (q + 35)) (2 ^ 257).
Proof. exact c105_proof. Qed.
Print Assumptions C105_proof.
Example C105_proof_case : exists U, universe 162 U /\ modest 162 1 adv105 /\ made_before 2 made0 /\
  exists f, length f = length U /\ exec (table U f) adv105 = (pf1, p1, m1) /\ valid_proof pf1 /\
    committed (table U f) made0 src0' t0' cflat /\ @convolve (table U f) Debug pf1 p1 m1 = Ret (Ok cflat) /\ ~ In (p1, m1) (ms_messages src0').
Proof. exact c105_proof_case. Qed.

Theorem C105_block : forall n U q k D made (adversary : prog merkle_block)
  (strings : universe n U) (short : 162 <= n) (few : modest n q adversary) (before : made_before D made),
  let K := N.of_nat (length made * (2 * 2 ^ D + 2)) in
  rare U (fun H => let b := exec H adversary in
            valid_block b /\ length (mb_cross_section b) <= k /\
            exists src t c p m, committed H made src t c /\ @block_commit_id H Debug b = Ret c /\
              In (p, m) (known_leaves (mb_cross_section b)) /\ ~ In (p, m) (ms_messages src))
       (K * (K - 1) + 2 * K * N.of_nat (q + (2 * k + 2))) (2 ^ 257).
Proof. exact c105_block. Qed.
Print Assumptions C105_block.
Example C105_block_case : exists U, universe 162 U /\ modest 162 1 (Ask [x00] (fun _ => Done b1)) /\ made_before 2 made0 /\
  exists f, length f = length U /\ valid_block b1 /\ length (mb_cross_section b1) <= 3 /\
    committed (table U f) made0 src0' t0' cflat /\ @block_commit_id (table U f) Debug b1 = Ret cflat /\
    In (p1, m1) (known_leaves (mb_cross_section b1)) /\ ~ In (p1, m1) (ms_messages src0').
Proof. exact c105_block_case. Qed.

Theorem C105_tree : forall n U q D D' made (adversary : prog (multi_source * option N))
  (strings : universe n U) (short : 162 <= n) (few : modest n q adversary) (before : made_before D made),
  let K := N.of_nat (length made * (2 * 2 ^ D + 2)) in
  rare U (fun H => let '(src', rng') := exec H adversary in
            valid_source src' /\ exists t' md', try_commit src' rng' = Ret (Ok t') /\ mt_depth t' <= D' /\
            exists src t c, committed H made src t c /\ @tree_commit_id H md' t' = Ret c /\ ms_messages src' <> ms_messages src)
       (K * (K - 1) + 2 * K * N.of_nat (q + (2 * 2 ^ D' + 2))) (2 ^ 257).
Proof. exact c105_tree. Qed.
Print Assumptions C105_tree.
Example C105_tree_case : exists U, universe 162 U /\ modest 162 0 (Done (src0, @None N)) /\ made_before 2 made0 /\
  exists f, length f = length U /\ valid_source src0 /\ try_commit src0 None = Ret (Ok t0) /\ mt_depth t0 <= 2 /\
    committed (table U f) made0 src0' t0' cflat /\ @tree_commit_id (table U f) Debug t0 = Ret cflat /\ ms_messages src0 <> ms_messages src0'.
Proof. exact c105_tree_case. Qed.

Theorem C105_value : forall n U q k D cs
  (opener : prog (merkle_proof * bytes32 * bytes32)) (shower : prog merkle_block) (maker : prog (multi_source * option N))
  (strings : universe n U) (short : 162 <= n) (few1 : modest n q opener) (few2 : modest n q shower) (few3 : modest n q maker),
  let v := N.of_nat (length cs) in
  rare U (fun H => let '(pf, pid, msg) := exec H opener in
            valid_proof pf /\ exists md c, @convolve H md pf pid msg = Ret (Ok c) /\ In c cs)
       (v * N.of_nat (q + 35)) (2 ^ 256) /\
  rare U (fun H => let b := exec H shower in
            valid_block b /\ length (mb_cross_section b) <= k /\ exists c, @block_commit_id H Debug b = Ret c /\ In c cs)
       (v * N.of_nat (q + (2 * k + 2))) (2 ^ 256) /\
  rare U (fun H => let '(src, rng) := exec H maker in
            valid_source src /\ exists t md c, try_commit src rng = Ret (Ok t) /\ mt_depth t <= D /\ @tree_commit_id H md t = Ret c /\ In c cs)
       (v * N.of_nat (q + (2 * 2 ^ D + 2))) (2 ^ 256).
Proof. exact c105_value. Qed.
Print Assumptions C105_value.
Example C105_value_case : exists U, universe 162 U /\ modest 162 1 adv105 /\ modest 162 1 (Ask [x00] (fun _ => Done b1)) /\
  modest 162 1 (Ask [x00] (fun _ => Done (src0, @None N))) /\
  exists f, length f = length U /\ In cflat [m1; cflat] /\
    valid_proof pf1 /\ @convolve (table U f) Debug pf1 p1 m1 = Ret (Ok cflat) /\
    valid_block b1 /\ @block_commit_id (table U f) Debug b1 = Ret cflat /\
    valid_source src0 /\ try_commit src0 None = Ret (Ok t0) /\ @tree_commit_id (table U f) Debug t0 = Ret cflat.
Proof. exact c105_value_case. Qed.

Theorem C105_numbers : forall n U q made (adversary : prog (merkle_proof * bytes32 * bytes32))
  (strings : universe n U) (short : 162 <= n) (few : modest n q adversary) (before : made_before 16 made)
  (work : (N.of_nat q <= 2 ^ 100)%N) (many : (N.of_nat (length made) <= 2 ^ 20)%N),
  rare U (fun H => let '(pf, pid, msg) := exec H adversary in
            valid_proof pf /\ exists src t md c, committed H made src t c /\ @convolve H md pf pid msg = Ret (Ok c) /\
              ~ In (pid, msg) (ms_messages src))
       1 (2 ^ 118).
Proof. exact c105_numbers. Qed.
Print Assumptions C105_numbers.
Example C105_numbers_case : modest 162 1 adv105 /\ made_before 16 made0 /\ (N.of_nat 1 <= 2 ^ 100)%N /\ (N.of_nat (length made0) <= 2 ^ 20)%N.
Proof. exact c105_numbers_case. Qed.
