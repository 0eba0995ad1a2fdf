(** Clients following the script of an adversary: C112 *)
From Coq Require Import Permutation Sorting.Sorted.
From Verif Require Import Base BaseFacts OrdMap Strict Digest Merkle MpcAtoms MpcTree MpcBlock.
From Verif Require Import Engine EngineIo Schemes Seals Api Vesper Sha256 Ripemd Dumb Text Loops Orders Suites MpcTests Serde Steps Work Costs.
From Verif Require Import SpecHash SpecTree SpecMerkle SpecFull SpecValid SpecCommit SpecDerived SpecBlock.
From Verif Require Import SpecBuoy SpecStrings SpecCodec SpecLayout SpecEngine SpecMisc SpecSha SpecDerive SpecLocal SpecSession SpecRipemd SpecEnd Stl SpecStl SpecQuery SpecCount SpecText SpecOrders SpecFind SpecForm SpecGame SpecHideGame SpecViewGame SpecBlockGame SpecSuites SpecExtend SpecCompress SpecTests SpecSerde SpecTalk SpecMany SpecDepth SpecTarget SpecIdGame SpecLate SpecTransfer SpecNest SpecScript SpecSalt SpecOpen SpecChoice SpecPick SpecOffer SpecPlay SpecSeek SpecShare SpecSettled SpecResting SpecDraw SpecFuse SpecFeed.
From Verif Require Import TheoremsMpc TheoremsBlock TheoremsMerkle TheoremsMisc TheoremsMore TheoremsExt TheoremsAdv TheoremsLocal TheoremsSession TheoremsHash TheoremsHide TheoremsEnd TheoremsStl TheoremsQuery TheoremsCount TheoremsText TheoremsFrame TheoremsLoops TheoremsTight TheoremsOrders TheoremsFind TheoremsForm TheoremsGame TheoremsHideGame TheoremsViewGame TheoremsBlockGame TheoremsSuites TheoremsExtend TheoremsCompress TheoremsTests TheoremsSerde TheoremsTalk TheoremsMany TheoremsDepth TheoremsWork TheoremsTarget TheoremsAttack TheoremsIdGame TheoremsLate TheoremsTransfer TheoremsNest TheoremsCosts TheoremsScript TheoremsSalt TheoremsOpen TheoremsChoice TheoremsPick TheoremsOffer TheoremsPlay TheoremsSeek TheoremsShare TheoremsSettled TheoremsResting TheoremsDraw TheoremsFuse TheoremsFeed.
From Verif Require Import CasesMpc CasesMisc CasesMore CasesExt CasesAdv CasesLocal CasesSession CasesHash CasesHide CasesEnd CasesStl CasesQuery CasesCount CasesText CasesFrame CasesLoops CasesTight CasesOrders CasesFind CasesForm CasesGame CasesHideGame CasesViewGame CasesBlockGame CasesSuites CasesExtend CasesCompress CasesTests CasesSerde CasesTalk CasesMany CasesDepth CasesWork CasesTarget CasesAttack CasesIdGame CasesLate CasesTransfer CasesNest CasesCosts CasesScript CasesSalt CasesOpen CasesChoice CasesPick CasesOffer CasesPlay CasesSeek CasesShare CasesSettled CasesResting CasesDraw CasesFuse CasesFeed.
Local Open Scope nat_scope.

Theorem C112_extract : forall (H : Hasher) md md' src rng t c L b
  (valid : valid_source src) (made : try_commit src rng = Ret (Ok t)) (tree_id : tree_commit_id md' t = Ret c)
  (held : session md c L b),
  ~ misled md src t c b \/ second_in (tree_pre t) L.
Proof. exact c112_extract. Qed.
Print Assumptions C112_extract.
Example C112_extract_case :
  (valid_source src0 /\ try_commit src0 None = Ret (Ok t0) /\ @tree_commit_id toy Debug t0 = Ret c0 /\
   @session toy Debug c0 (@proof_pre toy pf1 p1 m1 ++ @pcommit_pre toy 2 0 pt3) b13) /\
  (valid_source src0' /\ try_commit src0' None = Ret (Ok t0') /\ @tree_commit_id flat Debug t0' = Ret cflat /\
   @session flat Debug cflat (@proof_pre flat pf1 p1 m1) bx1 /\ @misled flat Debug src0' t0' cflat bx1).
Proof. exact c112_extract_case. Qed.

Theorem C112_script : forall n U q k D made (adversary : prog script)
  (strings : universe n U) (short : 162 <= n) (few : modest n q adversary) (before : made_before D made),
  let K := N.of_nat (length made * (2 * 2 ^ D + 2)) in
  rare U (fun H => let s := exec H adversary in
            traffic s <= k /\ exists src t c md b, committed H made src t c /\ @follows H md c s b /\ @misled H md src t c b)
       (K * (K - 1) + 2 * K * N.of_nat (q + k)) (2 ^ 257).
Proof. exact c112_script. Qed.
Print Assumptions C112_script.
Example C112_script_case : exists U, universe 162 U /\ modest 162 1 adv112 /\ made_before 2 made0 /\
  exists f, length f = length U /\ exec (table U f) adv112 = script0 /\ traffic script0 <= 72 /\
    committed (table U f) made0 src0' t0' cflat /\ @follows (table U f) Debug cflat script0 block0 /\
    @misled (table U f) Debug src0' t0' cflat block0.
Proof. exact c112_script_case. Qed.

Theorem C112_chosen : forall n U q k D (adversary : prog (multi_source * option N * script))
  (strings : universe n U) (short : 162 <= n) (few : modest n q adversary),
  let Q := q + (2 * 2 ^ D + 2 + k) in
  rare U (fun H => let '(src, rng, s) := exec H adversary in
            valid_source src /\ traffic s <= k /\ exists t md md' c b, try_commit src rng = Ret (Ok t) /\ mt_depth t <= D /\
              @tree_commit_id H md' t = Ret c /\ @follows H md c s b /\ @misled H md src t c b)
       (N.of_nat Q * N.of_nat (Q - 1)) (2 ^ 257).
Proof. exact c112_chosen. Qed.
Print Assumptions C112_chosen.
Example C112_chosen_case : exists U, universe 162 U /\ modest 162 1 (Ask [x00] (fun _ => Done (src0', @None N, script0))) /\
  exists f, length f = length U /\ valid_source src0' /\ traffic script0 <= 72 /\ try_commit src0' None = Ret (Ok t0') /\ mt_depth t0' <= 2 /\
    @tree_commit_id (table U f) Debug t0' = Ret cflat /\ @follows (table U f) Debug cflat script0 block0 /\
    @misled (table U f) Debug src0' t0' cflat block0.
Proof. exact c112_chosen_case. Qed.

Theorem C112_two : forall n U q k (adversary : prog (script * script))
  (strings : universe n U) (short : 162 <= n) (few : modest n q adversary),
  let Q := q + (k + k) in
  rare U (fun H => let '(s1, s2) := exec H adversary in
            traffic s1 <= k /\ traffic s2 <= k /\ no_extract s1 /\ no_extract s2 /\
            exists md c b1 b2, @follows H md c s1 b1 /\ @follows H md c s2 b2 /\ @at_odds H md c b1 b2)
       (N.of_nat Q * N.of_nat (Q - 1)) (2 ^ 257).
Proof. exact c112_two. Qed.
Print Assumptions C112_two.
Example C112_two_case : exists U, universe 162 U /\
  modest 162 1 (Ask [x00] (fun _ => Done (ScProof (enc c_merkle_proof pf1) p1 m1, ScProof (enc c_merkle_proof pf1) p1 m2))) /\
  exists f, length f = length U /\ traffic (ScProof (enc c_merkle_proof pf1) p1 m1) = 72 /\
    @follows (table U f) Debug cflat (ScProof (enc c_merkle_proof pf1) p1 m1) bx1 /\
    @follows (table U f) Debug cflat (ScProof (enc c_merkle_proof pf1) p1 m2) bx2 /\
    @at_odds (table U f) Debug cflat bx1 bx2.
Proof. exact c112_two_case. Qed.

Theorem C112_numbers : forall n U q k made (adversary : prog script)
  (strings : universe n U) (short : 162 <= n) (few : modest n q adversary) (before : made_before 16 made)
  (work : (N.of_nat q <= 2 ^ 100)%N) (bytes : (N.of_nat k <= 2 ^ 50)%N) (many : (N.of_nat (length made) <= 2 ^ 20)%N),
  rare U (fun H => let s := exec H adversary in
            traffic s <= k /\ exists src t c md b, committed H made src t c /\ @follows H md c s b /\ @misled H md src t c b)
       1 (2 ^ 118).
Proof. exact c112_numbers. Qed.
Print Assumptions C112_numbers.
Example C112_numbers_case : modest 162 1 adv112 /\ made_before 16 made0 /\ (N.of_nat 1 <= 2 ^ 100)%N /\
  (N.of_nat (traffic script0) <= 2 ^ 50)%N /\ (N.of_nat (length made0) <= 2 ^ 20)%N.
Proof. exact c112_numbers_case. Qed.

Theorem C112_extraction_refuted : exists md c s1 s2 b1 b2,
  @follows sha256 md c s1 b1 /\ @follows sha256 md c s2 b2 /\ no_extract s2 /\ @at_odds sha256 md c b1 b2.
Proof. exact c112_extraction_refuted. Qed.
Print Assumptions C112_extraction_refuted.
