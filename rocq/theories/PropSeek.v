(** A concealed message is as hard to find as to guess: C119 *)
From Coq Require Import Permutation Sorting.Sorted.
From Verif Require Import Base BaseFacts OrdMap Strict Digest Merkle MpcAtoms MpcTree MpcBlock.
From Verif Require Import Engine EngineIo Schemes Seals Api Vesper Sha256 Ripemd Dumb Text Loops Orders Suites MpcTests Serde Steps Work Costs.
From Verif Require Import SpecHash SpecTree SpecMerkle SpecFull SpecValid SpecCommit SpecDerived SpecBlock.
From Verif Require Import SpecBuoy SpecStrings SpecCodec SpecLayout SpecEngine SpecMisc SpecSha SpecDerive SpecLocal SpecSession SpecRipemd SpecEnd Stl SpecStl SpecQuery SpecCount SpecText SpecOrders SpecFind SpecForm SpecGame SpecHideGame SpecViewGame SpecBlockGame SpecSuites SpecExtend SpecCompress SpecTests SpecSerde SpecTalk SpecMany SpecDepth SpecTarget SpecIdGame SpecLate SpecTransfer SpecNest SpecScript SpecSalt SpecOpen SpecChoice SpecPick SpecOffer SpecPlay SpecSeek SpecShare SpecSettled SpecResting SpecDraw SpecFuse SpecFeed.
From Verif Require Import TheoremsMpc TheoremsBlock TheoremsMerkle TheoremsMisc TheoremsMore TheoremsExt TheoremsAdv TheoremsLocal TheoremsSession TheoremsHash TheoremsHide TheoremsEnd TheoremsStl TheoremsQuery TheoremsCount TheoremsText TheoremsFrame TheoremsLoops TheoremsTight TheoremsOrders TheoremsFind TheoremsForm TheoremsGame TheoremsHideGame TheoremsViewGame TheoremsBlockGame TheoremsSuites TheoremsExtend TheoremsCompress TheoremsTests TheoremsSerde TheoremsTalk TheoremsMany TheoremsDepth TheoremsWork TheoremsTarget TheoremsAttack TheoremsIdGame TheoremsLate TheoremsTransfer TheoremsNest TheoremsCosts TheoremsScript TheoremsSalt TheoremsOpen TheoremsChoice TheoremsPick TheoremsOffer TheoremsPlay TheoremsSeek TheoremsShare TheoremsSettled TheoremsResting TheoremsDraw TheoremsFuse TheoremsFeed.
From Verif Require Import CasesMpc CasesMisc CasesMore CasesExt CasesAdv CasesLocal CasesSession CasesHash CasesHide CasesEnd CasesStl CasesQuery CasesCount CasesText CasesFrame CasesLoops CasesTight CasesOrders CasesFind CasesForm CasesGame CasesHideGame CasesViewGame CasesBlockGame CasesSuites CasesExtend CasesCompress CasesTests CasesSerde CasesTalk CasesMany CasesDepth CasesWork CasesTarget CasesAttack CasesIdGame CasesLate CasesTransfer CasesNest CasesCosts CasesScript CasesSalt CasesOpen CasesChoice CasesPick CasesOffer CasesPlay CasesSeek CasesShare CasesSettled CasesResting CasesDraw CasesFuse CasesFeed.
Local Open Scope nat_scope.

Theorem C119_hidden : forall (A : Type) n U q g srcs es ts p S (G : bytes32 -> A -> bool) (B : seek A) k
  (strings : universe n U) (short : 162 <= n) (valid : Forall valid_source srcs) (made : commit_each srcs es ts)
  (candidates : NoDup S) (few : tactful srcs p q B) (guess : forall a, length (filter (fun m => G m a) S) <= g)
  (right : counts (told_about U srcs es p S G B) k),
  (k <= (N.of_nat q + N.of_nat g) * 2 ^ (256 * N.of_nat (length U)))%N.
Proof. exact c119_hidden. Qed.
Print Assumptions C119_hidden.
Example C119_hidden_case : exists U k, universe 162 U /\ Forall valid_source [srcd; src0] /\ commit_each [srcd; src0] [0%N; 0%N] [treed; t0] /\
  NoDup [m1; m2] /\ tactful [srcd; src0] p3 2 nosy /\ (forall a, length (filter (fun m => b32_eqb m a) [m1; m2]) <= 1) /\
  counts (told_about U [srcd; src0] [0%N; 0%N] p3 [m1; m2] b32_eqb nosy) k.
Proof. exact c119_hidden_case. Qed.

Theorem C119_found : forall n U q srcs es ts p S (B : seek bytes32) k
  (strings : universe n U) (short : 162 <= n) (valid : Forall valid_source srcs) (made : commit_each srcs es ts)
  (candidates : NoDup S) (few : tactful srcs p q B) (right : counts (told_about U srcs es p S b32_eqb B) k),
  (k <= (N.of_nat q + 1) * 2 ^ (256 * N.of_nat (length U)))%N.
Proof. exact c119_found. Qed.
Print Assumptions C119_found.
Example C119_found_case : exists U k, universe 162 U /\ Forall valid_source [srcd; src0] /\ commit_each [srcd; src0] [0%N; 0%N] [treed; t0] /\
  NoDup [m1; m2] /\ tactful [srcd; src0] p3 2 nosy /\ counts (told_about U [srcd; src0] [0%N; 0%N] p3 [m1; m2] b32_eqb nosy) k.
Proof. exact c119_found_case. Qed.

Theorem C119_property : forall n U q srcs es ts p S (P : bytes32 -> bool) (B : seek bool) k
  (strings : universe n U) (short : 162 <= n) (valid : Forall valid_source srcs) (made : commit_each srcs es ts)
  (candidates : NoDup S) (few : tactful srcs p q B)
  (half : length (filter P S) = length (filter (fun m => negb (P m)) S))
  (right : counts (told_about U srcs es p S (fun m b => Bool.eqb (P m) b) B) k),
  (2 * k <= (N.of_nat (length S) + 2 * N.of_nat q) * 2 ^ (256 * N.of_nat (length U)))%N.
Proof. exact c119_property. Qed.
Print Assumptions C119_property.
Example C119_property_case : exists U k, universe 162 U /\ Forall valid_source [srcd; src0] /\ commit_each [srcd; src0] [0%N; 0%N] [treed; t0] /\
  NoDup [m1; m2] /\ tactful [srcd; src0] p3 1 doubting /\
  length (filter (b32_eqb m1) [m1; m2]) = length (filter (fun m => negb (b32_eqb m1 m)) [m1; m2]) /\
  counts (told_about U [srcd; src0] [0%N; 0%N] p3 [m1; m2] (fun m b => Bool.eqb (b32_eqb m1 m) b) doubting) k.
Proof. exact c119_property_case. Qed.

Theorem C119_meaning : forall (A : Type) n U q srcs es ts p S (G : bytes32 -> A -> bool) (B : seek A)
  (strings : universe n U) (valid : Forall valid_source srcs) (made : commit_each srcs es ts)
  (candidates : NoDup S) (few : tactful srcs p q B) (answerable : inhabited A),
  (exists k, counts (told_about U srcs es p S G B) k) /\
  (forall H m, exists ts', commit_each (map (retold p m) srcs) es ts' /\ exists a, forall b, sought H ts' B b <-> b = a) /\
  counts (told_about U srcs es p S (fun _ _ => true) B) (N.of_nat (length S) * 2 ^ (256 * N.of_nat (length U))).
Proof. exact c119_meaning. Qed.
Print Assumptions C119_meaning.
Example C119_meaning_case : Forall valid_source [srcd; src0] /\ commit_each [srcd; src0] [0%N; 0%N] [treed; t0] /\ NoDup [m1; m2] /\
  tactful [srcd; src0] p3 2 nosy /\ inhabited bytes32 /\ sought toy (map (retell p3 m1) [treed; t0]) nosy m1 /\ sought toy (map (retell p3 m2) [treed; t0]) nosy m2.
Proof. exact c119_meaning_case. Qed.

Theorem C119_numbers : forall n U q srcs es ts p S (B : seek bytes32) k all
  (strings : universe n U) (short : 162 <= n) (valid : Forall valid_source srcs) (made : commit_each srcs es ts)
  (candidates : NoDup S) (every : forall m, In m S) (few : tactful srcs p q B) (work : (N.of_nat q < 2 ^ 128)%N)
  (right : counts (told_about U srcs es p S b32_eqb B) k) (total : counts (told_about U srcs es p S (fun _ _ => true) B) all),
  (k * 2 ^ 128 <= all)%N.
Proof. exact c119_numbers. Qed.
Print Assumptions C119_numbers.
Example C119_numbers_case : exists U S k all, universe 162 U /\ NoDup S /\ (forall m : bytes32, In m S) /\ tactful [srcd; src0] p3 2 nosy /\ (N.of_nat 2 < 2 ^ 128)%N /\
  counts (told_about U [srcd; src0] [0%N; 0%N] p3 S b32_eqb nosy) k /\ counts (told_about U [srcd; src0] [0%N; 0%N] p3 S (fun _ _ => true) nosy) all.
Proof. exact c119_numbers_case. Qed.

Theorem C119_sharp : forall n U q src e t p m x L
  (strings : universe n U) (short : 162 <= n) (valid : valid_source src) (entropy : (e < 2 ^ 64)%N) (made : try_commit src (Some e) = Ret (Ok t))
  (theirs : In (p, m) (ms_messages src)) (shown : exists y, In (x, y) (ms_messages src)) (beside : side_by_side t p x)
  (tried : NoDup L) (count : length L = S q),
  exists B, tactful [src] p (S q) B /\
    forall S k, incl L S -> counts (told_about U [src] [e] p S b32_eqb B) k ->
      ((N.of_nat q + 1) * 2 ^ (256 * N.of_nat (length U)) * 2 ^ 257 <=
       k * 2 ^ 257 + (N.of_nat q + 1) ^ 2 * (N.of_nat q + 2) * 2 ^ (256 * N.of_nat (length U)))%N.
Proof. exact c119_sharp. Qed.
Print Assumptions C119_sharp.
Example C119_sharp_case : exists U, universe 162 U /\ valid_source srcd /\ (0 < 2 ^ 64)%N /\ try_commit srcd (Some 0%N) = Ret (Ok treed) /\
  In (p3, m1) (ms_messages srcd) /\ (exists y, In (p2, y) (ms_messages srcd)) /\ side_by_side treed p3 p2 /\ NoDup [m1; m2] /\ length [m1; m2] = S 1.
Proof. exact c119_sharp_case. Qed.
