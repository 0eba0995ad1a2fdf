(** Ids of values with secrets: C113 *)
From Coq Require Import Permutation Sorting.Sorted.
From Verif Require Import Base BaseFacts OrdMap Strict Digest Merkle MpcAtoms MpcTree MpcBlock.
From Verif Require Import Engine EngineIo Schemes Seals Api Vesper Sha256 Ripemd Dumb Text Loops Orders Suites MpcTests Serde Steps Work Costs.
From Verif Require Import SpecHash SpecTree SpecMerkle SpecFull SpecValid SpecCommit SpecDerived SpecBlock.
From Verif Require Import SpecBuoy SpecStrings SpecCodec SpecLayout SpecEngine SpecMisc SpecSha SpecDerive SpecLocal SpecSession SpecRipemd SpecEnd Stl SpecStl SpecQuery SpecCount SpecText SpecOrders SpecFind SpecForm SpecGame SpecHideGame SpecViewGame SpecBlockGame SpecSuites SpecExtend SpecCompress SpecTests SpecSerde SpecTalk SpecMany SpecDepth SpecTarget SpecIdGame SpecLate SpecTransfer SpecNest SpecScript SpecSalt SpecOpen SpecChoice SpecPick SpecOffer SpecPlay SpecSeek SpecShare SpecSettled SpecResting SpecDraw SpecFuse SpecFeed.
From Verif Require Import TheoremsMpc TheoremsBlock TheoremsMerkle TheoremsMisc TheoremsMore TheoremsExt TheoremsAdv TheoremsLocal TheoremsSession TheoremsHash TheoremsHide TheoremsEnd TheoremsStl TheoremsQuery TheoremsCount TheoremsText TheoremsFrame TheoremsLoops TheoremsTight TheoremsOrders TheoremsFind TheoremsForm TheoremsGame TheoremsHideGame TheoremsViewGame TheoremsBlockGame TheoremsSuites TheoremsExtend TheoremsCompress TheoremsTests TheoremsSerde TheoremsTalk TheoremsMany TheoremsDepth TheoremsWork TheoremsTarget TheoremsAttack TheoremsIdGame TheoremsLate TheoremsTransfer TheoremsNest TheoremsCosts TheoremsScript TheoremsSalt TheoremsOpen TheoremsChoice TheoremsPick TheoremsOffer TheoremsPlay TheoremsSeek TheoremsShare TheoremsSettled TheoremsResting TheoremsDraw TheoremsFuse TheoremsFeed.
From Verif Require Import CasesMpc CasesMisc CasesMore CasesExt CasesAdv CasesLocal CasesSession CasesHash CasesHide CasesEnd CasesStl CasesQuery CasesCount CasesText CasesFrame CasesLoops CasesTight CasesOrders CasesFind CasesForm CasesGame CasesHideGame CasesViewGame CasesBlockGame CasesSuites CasesExtend CasesCompress CasesTests CasesSerde CasesTalk CasesMany CasesDepth CasesWork CasesTarget CasesAttack CasesIdGame CasesLate CasesTransfer CasesNest CasesCosts CasesScript CasesSalt CasesOpen CasesChoice CasesPick CasesOffer CasesPlay CasesSeek CasesShare CasesSettled CasesResting CasesDraw CasesFuse CasesFeed.
Local Open Scope nat_scope.

Theorem C113_blind : forall n U q md S (A : list bytes32 -> prog bool) vs r k k0 (strings : universe n U) (few : forall cs, modest n q (A cs))
  (hidden : Forall (salted n md S) vs) (many : N.of_nat (length vs) = r)
  (real : counts (guesses_ids U md S vs A) k) (ideal : counts (guesses_noise U (length vs) A) k0),
  let error := (r * (N.of_nat q + 2 * (r - 1)) * S ^ (r - 1) * 2 ^ (256 * r) * 2 ^ (256 * N.of_nat (length U)))%N in
  (k * 2 ^ (256 * r) <= k0 * S ^ r + error /\ k0 * S ^ r <= k * 2 ^ (256 * r) + error)%N.
Proof. exact c113_blind. Qed.
Print Assumptions C113_blind.
Example C113_blind_case : exists U k k0, universe 162 U /\ (forall cs, modest 162 1 (coin_guesser cs)) /\
  Forall (salted 162 Debug (2 ^ 256)) (map coin [5; 6]%N) /\ N.of_nat (length (map coin [5; 6]%N)) = 2%N /\
  counts (guesses_ids U Debug (2 ^ 256) (map coin [5; 6]%N) coin_guesser) k /\ counts (guesses_noise U 2 coin_guesser) k0.
Proof. exact c113_blind_case. Qed.

Theorem C113_hiding : forall n U q md S (A : list bytes32 -> prog bool) vs ws r k1 k2 (strings : universe n U) (few : forall cs, modest n q (A cs))
  (hidden1 : Forall (salted n md S) vs) (hidden2 : Forall (salted n md S) ws)
  (many1 : N.of_nat (length vs) = r) (many2 : N.of_nat (length ws) = r)
  (yes1 : counts (guesses_ids U md S vs A) k1) (yes2 : counts (guesses_ids U md S ws A) k2),
  (k1 <= k2 + 2 * r * (N.of_nat q + 2 * (r - 1)) * S ^ (r - 1) * 2 ^ (256 * N.of_nat (length U)))%N.
Proof. exact c113_hiding. Qed.
Print Assumptions C113_hiding.
Example C113_hiding_case : exists U k1 k2, universe 162 U /\ (forall cs, modest 162 1 (coin_guesser cs)) /\
  Forall (salted 162 Debug (2 ^ 256)) (map coin [5; 6]%N) /\ Forall (salted 162 Debug (2 ^ 256)) (map coin [7; 7]%N) /\
  counts (guesses_ids U Debug (2 ^ 256) (map coin [5; 6]%N) coin_guesser) k1 /\
  counts (guesses_ids U Debug (2 ^ 256) (map coin [7; 7]%N) coin_guesser) k2.
Proof. exact c113_hiding_case. Qed.

Theorem C113_numbers : forall n U q md (A : list bytes32 -> prog bool) vs ws k1 k2 all (strings : universe n U) (few : forall cs, modest n q (A cs))
  (work : (N.of_nat q <= 2 ^ 100)%N) (hidden1 : Forall (salted n md (2 ^ 256)) vs) (hidden2 : Forall (salted n md (2 ^ 256)) ws)
  (same : length vs = length ws) (many : (N.of_nat (length vs) <= 2 ^ 20)%N)
  (yes1 : counts (guesses_ids U md (2 ^ 256) vs A) k1) (yes2 : counts (guesses_ids U md (2 ^ 256) ws A) k2)
  (total : counts (guesses_ids U md (2 ^ 256) vs (fun _ => Done true)) all),
  (k1 * 2 ^ 134 <= k2 * 2 ^ 134 + all)%N.
Proof. exact c113_numbers. Qed.
Print Assumptions C113_numbers.
Example C113_numbers_case : (N.of_nat 1 <= 2 ^ 100)%N /\ length (map coin [5; 6]%N) = length (map coin [7; 7]%N) /\
  (N.of_nat (length (map coin [5; 6]%N)) <= 2 ^ 20)%N /\
  Forall (salted 162 Debug (2 ^ 256)) (map coin [5; 6]%N) /\ Forall (salted 162 Debug (2 ^ 256)) (map coin [7; 7]%N).
Proof. exact c113_numbers_case. Qed.

Theorem C113_meaning : forall n U md S (A : list bytes32 -> prog bool) vs (strings : universe n U) (hidden : Forall (salted n md S) vs),
  (exists k, counts (guesses_ids U md S vs A) k) /\ (exists k0, counts (guesses_noise U (length vs) A) k0) /\
  counts (guesses_ids U md S vs (fun _ => Done true)) (S ^ N.of_nat (length vs) * 2 ^ (256 * N.of_nat (length U))) /\
  counts (guesses_noise U (length vs) (fun _ => Done true)) (2 ^ (256 * N.of_nat (length vs)) * 2 ^ (256 * N.of_nat (length U))).
Proof. exact c113_meaning. Qed.
Print Assumptions C113_meaning.
Example C113_meaning_case : Forall (salted 162 Debug (2 ^ 256)) (map coin [5; 6; 7]%N).
Proof. exact c113_meaning_case. Qed.

Theorem C113_search : forall n U md S v (strings : universe n U) (hidden : salted n md S v) (secrets : (0 < S)%N),
  exists A q, (forall cs, modest n q (A cs)) /\ N.of_nat q = (S + 1)%N /\
    forall k k0, counts (guesses_ids U md S [v] A) k -> counts (guesses_noise U 1 A) k0 ->
      (k = S * 2 ^ (256 * N.of_nat (length U)) /\ k0 <= S * 2 ^ (256 * N.of_nat (length U)))%N.
Proof. exact c113_search. Qed.
Print Assumptions C113_search.
Example C113_search_case : salted 162 Debug (2 ^ 8) (coin 5) /\ salted 162 Debug (2 ^ 256) (coin 5) /\ (0 < 2 ^ 8)%N.
Proof. exact c113_search_case. Qed.

Theorem C113_salt : forall n md S (v : secret_value) tag (fields : sv_type v -> list field) Salt (T : typed Salt) val (salt : N -> Salt) pre post
  (short : length tag < 64) (encoder : forall H, feeds_fields H tag fields (sv_commit v H))
  (field : forall e, (e < S)%N -> fields (sv_value v e) = pre ++ FSerialized T (salt e) :: post)
  (plain : forall f t ls, In f (pre ++ post) -> f <> FMerkle t ls)
  (canonical : lawful (ty_codec T) val) (secret : forall e, (e < S)%N -> val (salt e))
  (injective : forall e e', (e < S)%N -> (e' < S)%N -> salt e = salt e' -> e = e')
  (size : forall H e bs, (e < S)%N -> Forall2 (@feeds H) (fields (sv_value v e)) bs -> length (concat bs) + 64 <= n)
  (defined : forall H e, (e < S)%N -> exists id, @commit_id H _ md (sv_commit v H) (sv_value v e) = Ret id),
  salted n md S v.
Proof. exact c113_salt. Qed.
Print Assumptions C113_salt.
Example C113_salt_case : (forall H, feeds_fields H (str "coin") coin_fields (coinI H)) /\ lawful (ty_codec saltt) (fun v => (v < 2 ^ 256)%N) /\
  (forall e, coin_fields (sv_value (coin 5) e) = [FSerialized u8t 5%N] ++ [FSerialized saltt e]) /\
  (forall H e bs, Forall2 (@feeds H) (coin_fields (sv_value (coin 5) e)) bs -> length (concat bs) + 64 <= 162) /\
  forall H e, exists id, @commit_id H _ Debug (coinI H) (sv_value (coin 5) e) = Ret id.
Proof. exact c113_salt_case. Qed.
