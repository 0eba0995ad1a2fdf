(** Adversaries with a bounded number of hash queries: C92 *)
From Coq Require Import Permutation Sorting.Sorted.
From Verif Require Import Base BaseFacts OrdMap Strict Digest Merkle MpcAtoms MpcTree MpcBlock.
From Verif Require Import Engine EngineIo Schemes Seals Api Vesper Sha256 Ripemd Dumb Text Loops Orders Suites MpcTests Serde Steps Work Costs.
From Verif Require Import SpecHash SpecTree SpecMerkle SpecFull SpecValid SpecCommit SpecDerived SpecBlock.
From Verif Require Import SpecBuoy SpecStrings SpecCodec SpecLayout SpecEngine SpecMisc SpecSha SpecDerive SpecLocal SpecSession SpecRipemd SpecEnd Stl SpecStl SpecQuery SpecCount SpecText SpecOrders SpecFind SpecForm SpecGame SpecHideGame SpecViewGame SpecBlockGame SpecSuites SpecExtend SpecCompress SpecTests SpecSerde SpecTalk SpecMany SpecDepth SpecTarget SpecIdGame SpecLate SpecTransfer SpecNest SpecScript SpecSalt SpecOpen SpecChoice SpecPick SpecOffer SpecPlay SpecSeek SpecShare SpecSettled SpecResting SpecDraw SpecFuse SpecFeed.
From Verif Require Import TheoremsMpc TheoremsBlock TheoremsMerkle TheoremsMisc TheoremsMore TheoremsExt TheoremsAdv TheoremsLocal TheoremsSession TheoremsHash TheoremsHide TheoremsEnd TheoremsStl TheoremsQuery TheoremsCount TheoremsText TheoremsFrame TheoremsLoops TheoremsTight TheoremsOrders TheoremsFind TheoremsForm TheoremsGame TheoremsHideGame TheoremsViewGame TheoremsBlockGame TheoremsSuites TheoremsExtend TheoremsCompress TheoremsTests TheoremsSerde TheoremsTalk TheoremsMany TheoremsDepth TheoremsWork TheoremsTarget TheoremsAttack TheoremsIdGame TheoremsLate TheoremsTransfer TheoremsNest TheoremsCosts TheoremsScript TheoremsSalt TheoremsOpen TheoremsChoice TheoremsPick TheoremsOffer TheoremsPlay TheoremsSeek TheoremsShare TheoremsSettled TheoremsResting TheoremsDraw TheoremsFuse TheoremsFeed.
From Verif Require Import CasesMpc CasesMisc CasesMore CasesExt CasesAdv CasesLocal CasesSession CasesHash CasesHide CasesEnd CasesStl CasesQuery CasesCount CasesText CasesFrame CasesLoops CasesTight CasesOrders CasesFind CasesForm CasesGame CasesHideGame CasesViewGame CasesBlockGame CasesSuites CasesExtend CasesCompress CasesTests CasesSerde CasesTalk CasesMany CasesDepth CasesWork CasesTarget CasesAttack CasesIdGame CasesLate CasesTransfer CasesNest CasesCosts CasesScript CasesSalt CasesOpen CasesChoice CasesPick CasesOffer CasesPlay CasesSeek CasesShare CasesSettled CasesResting CasesDraw CasesFuse CasesFeed.
Local Open Scope nat_scope.

Theorem C92_birthday : forall n U A (p : prog A) q (strings : universe n U) (few : modest n q p),
  rare U (fun H => @collision_in H (asked H p)) (N.of_nat q * N.of_nat (q - 1)) (2 ^ 257).
Proof. exact c92_birthday. Qed.
Print Assumptions C92_birthday.
Example C92_birthday_case : exists U, universe 3 U /\
  modest 3 2 (Ask [x00] (fun a => Ask (if b32_eqb a (b32_fill x00) then [x01] else [x00; x00]) Done)) /\
  @collision_in flat (asked flat (Ask [x00] (fun a => Ask (if b32_eqb a (b32_fill x00) then [x01] else [x00; x00]) Done))).
Proof. exact c92_birthday_case. Qed.

Theorem C92_two_messages : forall n U q (adversary : prog (merkle_proof * bytes32 * merkle_proof * bytes32 * bytes32))
  (strings : universe n U) (short : 162 <= n) (few : modest n q adversary),
  rare U (fun H => let '(pf1, m1, pf2, m2, pid) := exec H adversary in
            valid_proof pf1 /\ valid_proof pf2 /\ (m1 <> m2 \/ pf1 <> pf2) /\
            exists md1 md2 c, @convolve H md1 pf1 pid m1 = Ret (Ok c) /\ @convolve H md2 pf2 pid m2 = Ret (Ok c))
       (N.of_nat (q + 70) * N.of_nat (q + 69)) (2 ^ 257).
Proof. exact c92_two_messages. Qed.
Print Assumptions C92_two_messages.
Example C92_two_messages_case : exists U, universe 162 U /\ modest 162 1 adv1 /\
  exists f, length f = length U /\ valid_proof pf1 /\ m1 <> m2 /\ exec (table U f) adv1 = (pf1, m1, pf1, m2, p1) /\
    @convolve (table U f) Debug pf1 p1 m1 = Ret (Ok cflat) /\ @convolve (table U f) Debug pf1 p1 m2 = Ret (Ok cflat).
Proof. exact c92_two_messages_case. Qed.

Theorem C92_forgery : forall n U q D (adversary : prog (multi_source * option N * merkle_proof * bytes32 * bytes32))
  (strings : universe n U) (short : 162 <= n) (few : modest n q adversary),
  rare U (fun H => let '(src, rng, pf, pid, msg) := exec H adversary in
            valid_source src /\ valid_proof pf /\ ~ In (pid, msg) (ms_messages src) /\
            exists t md md' c, try_commit src rng = Ret (Ok t) /\ mt_depth t <= D /\
              @tree_commit_id H md t = Ret c /\ @convolve H md' pf pid msg = Ret (Ok c))
       (N.of_nat (q + (2 * 2 ^ D + 37)) * N.of_nat (q + (2 * 2 ^ D + 36))) (2 ^ 257).
Proof. exact c92_forgery. Qed.
Print Assumptions C92_forgery.
Example C92_forgery_case : exists U, universe 162 U /\ modest 162 1 adv2 /\
  exists f, length f = length U /\ valid_source src0 /\ ~ In (p1, m2) (ms_messages src0) /\
    try_commit src0 None = Ret (Ok t0) /\ mt_depth t0 <= 2 /\
    @tree_commit_id (table U f) Debug t0 = Ret cflat /\ @convolve (table U f) Debug pf1 p1 m2 = Ret (Ok cflat).
Proof. exact c92_forgery_case. Qed.

Theorem C92_two_trees : forall n U q D (adversary : prog (multi_source * option N * (multi_source * option N)))
  (strings : universe n U) (short : 162 <= n) (few : modest n q adversary),
  rare U (fun H => let '(src1, rng1, (src2, rng2)) := exec H adversary in
            valid_source src1 /\ valid_source src2 /\ ms_messages src1 <> ms_messages src2 /\
            match rng1 with Some e => (e < 2 ^ 64)%N | None => True end /\
            match rng2 with Some e => (e < 2 ^ 64)%N | None => True end /\
            exists t1 t2 md c, try_commit src1 rng1 = Ret (Ok t1) /\ try_commit src2 rng2 = Ret (Ok t2) /\
              mt_depth t1 <= D /\ mt_depth t2 <= D /\ @tree_commit_id H md t1 = Ret c /\ @tree_commit_id H md t2 = Ret c)
       (N.of_nat (q + (4 * 2 ^ D + 4)) * N.of_nat (q + (4 * 2 ^ D + 3))) (2 ^ 257).
Proof. exact c92_two_trees. Qed.
Print Assumptions C92_two_trees.
Example C92_two_trees_case : exists U, universe 162 U /\
  modest 162 0 (Done (src0, @None N, (src0', @None N))) /\
  exists f, length f = length U /\ ms_messages src0 <> ms_messages src0' /\ valid_source src0 /\ valid_source src0' /\
    try_commit src0 None = Ret (Ok t0) /\ try_commit src0' None = Ret (Ok t0') /\ mt_depth t0 <= 2 /\ mt_depth t0' <= 2 /\
    @tree_commit_id (table U f) Debug t0 = Ret cflat /\ @tree_commit_id (table U f) Debug t0' = Ret cflat.
Proof. exact c92_two_trees_case. Qed.

Theorem C92_two_lists : forall n U q k (adversary : prog (list bytes32 * list bytes32))
  (strings : universe n U) (short : 162 <= n) (few : modest n q adversary),
  rare U (fun H => let '(xs, ys) := exec H adversary in
            xs <> ys /\ length xs <= k /\ length ys <= k /\ length xs <> 1 /\ length ys <> 1 /\
            exists r, @merklize H xs = Ret r /\ @merklize H ys = Ret r)
       (N.of_nat (q + (4 * k + 4)) * N.of_nat (q + (4 * k + 3))) (2 ^ 257).
Proof. exact c92_two_lists. Qed.
Print Assumptions C92_two_lists.
Example C92_two_lists_case : exists U, universe 162 U /\ modest 162 0 (Done ([p1; p2], [p3; p1; p2])) /\
  exists f, length f = length U /\
    @merklize (table U f) [p1; p2] = Ret cflat /\ @merklize (table U f) [p3; p1; p2] = Ret cflat.
Proof. exact c92_two_lists_case. Qed.

Theorem C92_meaning : forall n,
  (exists U, universe n U) /\
  (forall U, universe n U -> forall num den, rare U (fun _ => True) num den <-> (den <= num)%N) /\
  (forall U, universe n U -> forall H : Hasher, exists f, length f = length U /\ forall s, length s <= n -> table U f s = H s).
Proof. exact c92_meaning. Qed.
Print Assumptions C92_meaning.
Example C92_meaning_case : exists U, universe 2 U /\ ~ rare U (fun _ => True) 1 2 /\ rare U (fun _ => False) 0 1.
Proof. exact c92_meaning_case. Qed.

Theorem C92_numbers : forall n U q (adversary : prog (merkle_proof * bytes32 * merkle_proof * bytes32 * bytes32))
  (strings : universe n U) (short : 162 <= n) (few : modest n q adversary) (work : (N.of_nat q <= 2 ^ 100)%N),
  rare U (fun H => let '(pf1, m1, pf2, m2, pid) := exec H adversary in
            valid_proof pf1 /\ valid_proof pf2 /\ m1 <> m2 /\
            exists md c, @convolve H md pf1 pid m1 = Ret (Ok c) /\ @convolve H md pf2 pid m2 = Ret (Ok c))
       1 (2 ^ 56).
Proof. exact c92_numbers. Qed.
Print Assumptions C92_numbers.
Example C92_numbers_case : modest 162 1 adv1 /\ (N.of_nat 1 <= 2 ^ 100)%N.
Proof. exact c92_numbers_case. Qed.
