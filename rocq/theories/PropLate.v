(** Replacing what was committed to beforehand: C108 *)
From Coq Require Import Permutation Sorting.Sorted.
From Verif Require Import Base BaseFacts OrdMap Strict Digest Merkle MpcAtoms MpcTree MpcBlock.
From Verif Require Import Engine EngineIo Schemes Seals Api Vesper Sha256 Ripemd Dumb Text Loops Orders Suites MpcTests Serde Steps Work Costs.
From Verif Require Import SpecHash SpecTree SpecMerkle SpecFull SpecValid SpecCommit SpecDerived SpecBlock.
From Verif Require Import SpecBuoy SpecStrings SpecCodec SpecLayout SpecEngine SpecMisc SpecSha SpecDerive SpecLocal SpecSession SpecRipemd SpecEnd Stl SpecStl SpecQuery SpecCount SpecText SpecOrders SpecFind SpecForm SpecGame SpecHideGame SpecViewGame SpecBlockGame SpecSuites SpecExtend SpecCompress SpecTests SpecSerde SpecTalk SpecMany SpecDepth SpecTarget SpecIdGame SpecLate SpecTransfer SpecNest SpecScript SpecSalt SpecOpen SpecChoice SpecPick SpecOffer SpecPlay SpecSeek SpecShare SpecSettled SpecResting SpecDraw SpecFuse SpecFeed.
From Verif Require Import TheoremsMpc TheoremsBlock TheoremsMerkle TheoremsMisc TheoremsMore TheoremsExt TheoremsAdv TheoremsLocal TheoremsSession TheoremsHash TheoremsHide TheoremsEnd TheoremsStl TheoremsQuery TheoremsCount TheoremsText TheoremsFrame TheoremsLoops TheoremsTight TheoremsOrders TheoremsFind TheoremsForm TheoremsGame TheoremsHideGame TheoremsViewGame TheoremsBlockGame TheoremsSuites TheoremsExtend TheoremsCompress TheoremsTests TheoremsSerde TheoremsTalk TheoremsMany TheoremsDepth TheoremsWork TheoremsTarget TheoremsAttack TheoremsIdGame TheoremsLate TheoremsTransfer TheoremsNest TheoremsCosts TheoremsScript TheoremsSalt TheoremsOpen TheoremsChoice TheoremsPick TheoremsOffer TheoremsPlay TheoremsSeek TheoremsShare TheoremsSettled TheoremsResting TheoremsDraw TheoremsFuse TheoremsFeed.
From Verif Require Import CasesMpc CasesMisc CasesMore CasesExt CasesAdv CasesLocal CasesSession CasesHash CasesHide CasesEnd CasesStl CasesQuery CasesCount CasesText CasesFrame CasesLoops CasesTight CasesOrders CasesFind CasesForm CasesGame CasesHideGame CasesViewGame CasesBlockGame CasesSuites CasesExtend CasesCompress CasesTests CasesSerde CasesTalk CasesMany CasesDepth CasesWork CasesTarget CasesAttack CasesIdGame CasesLate CasesTransfer CasesNest CasesCosts CasesScript CasesSalt CasesOpen CasesChoice CasesPick CasesOffer CasesPlay CasesSeek CasesShare CasesSettled CasesResting CasesDraw CasesFuse CasesFeed.
Local Open Scope nat_scope.

Theorem C108_extract : forall (H : Hasher) md md' tag fs gs e e' bs cs Lf Lg
  (fed1 : run md fs (engine_new tag) = Ret e) (fed2 : run md' gs (engine_new tag) = Ret e')
  (kinds : Forall2 same_kind fs gs) (bytes1 : Forall2 feeds fs bs) (bytes2 : Forall2 feeds gs cs)
  (hashed1 : fields_hashed fs Lf) (hashed2 : fields_hashed gs Lg)
  (same : digest_finish (engine_finish e) = digest_finish (engine_finish e')),
  fs = gs \/ second_in (s_pre tag (concat bs) :: Lf) (s_pre tag (concat cs) :: Lg).
Proof. exact c108_extract. Qed.
Print Assumptions C108_extract.
Example C108_extract_case :
  let fs := [FSerialized u8t 5%N; FMerkle idt [p1; p2]] in let gs := [FSerialized u8t 6%N; FMerkle idt [p1; p2; p3]] in
  exists e e' bs cs Lf Lg, @run flat Debug fs (@engine_new flat (str "tag")) = Ret e /\
    @run flat Debug gs (@engine_new flat (str "tag")) = Ret e' /\ Forall2 same_kind fs gs /\
    Forall2 (@feeds flat) fs bs /\ Forall2 (@feeds flat) gs cs /\ @fields_hashed flat fs Lf /\ @fields_hashed flat gs Lg /\
    @digest_finish flat (engine_finish e) = @digest_finish flat (engine_finish e').
Proof. exact c108_extract_case. Qed.

Theorem C108_ids : forall n U q k Op tag (I : Hasher -> commit_encode Op) (fields : Op -> list field) (made : list Op) (adversary : prog Op)
  (strings : universe n U) (short : 162 <= n) (short_tag : length tag <= n) (few : modest n q adversary)
  (encoder : forall H, feeds_fields H tag fields (I H)),
  let K := N.of_nat (length made * (k + 2)) in
  rare U (fun H => let w := exec H adversary in
            small H n k tag (fields w) /\
            exists v md md' id, In v made /\ small H n k tag (fields v) /\ fields v <> fields w /\ Forall2 same_kind (fields v) (fields w) /\
              @commit_id H Op md (I H) v = Ret id /\ @commit_id H Op md' (I H) w = Ret id)
       (K * (K - 1) + 2 * K * N.of_nat (q + (k + 2))) (2 ^ 257).
Proof. exact c108_ids. Qed.
Print Assumptions C108_ids.
Example C108_ids_case : exists U, universe 162 U /\ length (str "pair") <= 162 /\ modest 162 1 other_rec /\
  (forall H, feeds_fields H (str "pair") rec_fields (recI H)) /\
  exists f, length f = length U /\ exec (table U f) other_rec = (6%N, [p1; p2; p3]) /\
    small (table U f) 162 8 (str "pair") (rec_fields (6%N, [p1; p2; p3])) /\
    exists v, In v [(7%N, []); (5%N, [p1; p2])] /\
    small (table U f) 162 8 (str "pair") (rec_fields v) /\
    rec_fields v <> rec_fields (6%N, [p1; p2; p3]) /\ Forall2 same_kind (rec_fields v) (rec_fields (6%N, [p1; p2; p3])) /\
    @commit_id (table U f) _ Debug (recI (table U f)) v = Ret cflat /\
    @commit_id (table U f) _ Debug (recI (table U f)) (6%N, [p1; p2; p3]) = Ret cflat.
Proof. exact c108_ids_case. Qed.

Theorem C108_lists : forall n U q k (made : list (list bytes32)) (adversary : prog (list bytes32))
  (strings : universe n U) (short : 162 <= n) (few : modest n q adversary),
  let K := N.of_nat (length made * (2 * k + 2)) in
  rare U (fun H => let ys := exec H adversary in
            length ys <= k /\ length ys <> 1 /\
            exists xs r, In xs made /\ length xs <= k /\ length xs <> 1 /\ xs <> ys /\ @merklize H xs = Ret r /\ @merklize H ys = Ret r)
       (K * (K - 1) + 2 * K * N.of_nat (q + (2 * k + 2))) (2 ^ 257).
Proof. exact c108_lists. Qed.
Print Assumptions C108_lists.
Example C108_lists_case : exists U, universe 162 U /\ modest 162 0 (Done [p3; p1; p2]) /\
  exists f, length f = length U /\ In [p1; p2] [[]; [p1; p2]] /\
    @merklize (table U f) [p1; p2] = Ret cflat /\ @merklize (table U f) [p3; p1; p2] = Ret cflat.
Proof. exact c108_lists_case. Qed.

Theorem C108_replaced : forall n U q k D Op Seal Pub PubId PubErr CliErr Issue Fail Warn Info Res tag
  (I : Hasher -> commit_encode Op) (fields : Op -> list field) (op : Op) pid (source : bytes32 -> multi_source * option N)
  (adversary : prog (Op * merkle_proof))
  (strings : universe n U) (short : 162 <= n) (short_tag : length tag <= n) (few : modest n q adversary)
  (encoder : forall H, feeds_fields H tag fields (I H)),
  let K := N.of_nat (k + 2 + (2 * 2 ^ D + 2)) in
  rare U (fun H => let '(op', pf') := exec H adversary in
            fields op <> fields op' /\ Forall2 same_kind (fields op) (fields op') /\
            small H n k tag (fields op) /\ small H n k tag (fields op') /\
            exists c, published H (I H) op pid source D c /\
              accepted_for Op Seal Pub PubId PubErr CliErr Issue Fail Warn Info Res H (I H) pid c op' pf')
       (K * (K - 1) + 2 * K * N.of_nat (q + (k + 37))) (2 ^ 257).
Proof. exact c108_replaced. Qed.
Print Assumptions C108_replaced.
Example C108_replaced_case : exists U, universe 162 U /\ length (str "op") <= 162 /\ modest 162 1 replacer /\
  (forall H, feeds_fields H (str "op") op_fields opI) /\
  exists f, length f = length U /\ exec (table U f) replacer = (6%N, pf1) /\
    op_fields 5 <> op_fields 6 /\ Forall2 same_kind (op_fields 5) (op_fields 6) /\
    small (table U f) 162 0 (str "op") (op_fields 5) /\ small (table U f) 162 0 (str "op") (op_fields 6) /\
    published (table U f) opI 5%N p1 src_op 2 cflat /\
    accepted_for N nat bytes32 nat unit unit nat nat nat nat nat (table U f) opI p1 cflat 6%N pf1.
Proof. exact c108_replaced_case. Qed.

Theorem C108_numbers : forall n U q k D Op Seal Pub PubId PubErr CliErr Issue Fail Warn Info Res tag
  (I : Hasher -> commit_encode Op) (fields : Op -> list field) (op : Op) pid (source : bytes32 -> multi_source * option N)
  (adversary : prog (Op * merkle_proof))
  (strings : universe n U) (short : 162 <= n) (short_tag : length tag <= n) (few : modest n q adversary)
  (encoder : forall H, feeds_fields H tag fields (I H))
  (work : (N.of_nat q <= 2 ^ 100)%N) (size : (N.of_nat k <= 2 ^ 16)%N) (depth : D <= 16),
  rare U (fun H => let '(op', pf') := exec H adversary in
            fields op <> fields op' /\ Forall2 same_kind (fields op) (fields op') /\
            small H n k tag (fields op) /\ small H n k tag (fields op') /\
            exists c, published H (I H) op pid source D c /\
              accepted_for Op Seal Pub PubId PubErr CliErr Issue Fail Warn Info Res H (I H) pid c op' pf')
       1 (2 ^ 137).
Proof. exact c108_numbers. Qed.
Print Assumptions C108_numbers.
Example C108_numbers_case : modest 162 1 replacer /\ (N.of_nat 1 <= 2 ^ 100)%N /\ (N.of_nat 0 <= 2 ^ 16)%N /\ 2 <= 16 /\
  (forall H, feeds_fields H (str "op") op_fields opI).
Proof. exact c108_numbers_case. Qed.
