(** Adversaries against ids, collections and seals: C107 *)
From Coq Require Import Permutation Sorting.Sorted.
From Verif Require Import Base BaseFacts OrdMap Strict Digest Merkle MpcAtoms MpcTree MpcBlock.
From Verif Require Import Engine EngineIo Schemes Seals Api Vesper Sha256 Ripemd Dumb Text Loops Orders Suites MpcTests Serde Steps Work Costs.
From Verif Require Import SpecHash SpecTree SpecMerkle SpecFull SpecValid SpecCommit SpecDerived SpecBlock.
From Verif Require Import SpecBuoy SpecStrings SpecCodec SpecLayout SpecEngine SpecMisc SpecSha SpecDerive SpecLocal SpecSession SpecRipemd SpecEnd Stl SpecStl SpecQuery SpecCount SpecText SpecOrders SpecFind SpecForm SpecGame SpecHideGame SpecViewGame SpecBlockGame SpecSuites SpecExtend SpecCompress SpecTests SpecSerde SpecTalk SpecMany SpecDepth SpecTarget SpecIdGame SpecLate SpecTransfer SpecNest SpecScript SpecSalt SpecOpen SpecChoice SpecPick SpecOffer SpecPlay SpecSeek SpecShare SpecSettled SpecResting SpecDraw SpecFuse SpecFeed.
From Verif Require Import TheoremsMpc TheoremsBlock TheoremsMerkle TheoremsMisc TheoremsMore TheoremsExt TheoremsAdv TheoremsLocal TheoremsSession TheoremsHash TheoremsHide TheoremsEnd TheoremsStl TheoremsQuery TheoremsCount TheoremsText TheoremsFrame TheoremsLoops TheoremsTight TheoremsOrders TheoremsFind TheoremsForm TheoremsGame TheoremsHideGame TheoremsViewGame TheoremsBlockGame TheoremsSuites TheoremsExtend TheoremsCompress TheoremsTests TheoremsSerde TheoremsTalk TheoremsMany TheoremsDepth TheoremsWork TheoremsTarget TheoremsAttack TheoremsIdGame TheoremsLate TheoremsTransfer TheoremsNest TheoremsCosts TheoremsScript TheoremsSalt TheoremsOpen TheoremsChoice TheoremsPick TheoremsOffer TheoremsPlay TheoremsSeek TheoremsShare TheoremsSettled TheoremsResting TheoremsDraw TheoremsFuse TheoremsFeed.
From Verif Require Import CasesMpc CasesMisc CasesMore CasesExt CasesAdv CasesLocal CasesSession CasesHash CasesHide CasesEnd CasesStl CasesQuery CasesCount CasesText CasesFrame CasesLoops CasesTight CasesOrders CasesFind CasesForm CasesGame CasesHideGame CasesViewGame CasesBlockGame CasesSuites CasesExtend CasesCompress CasesTests CasesSerde CasesTalk CasesMany CasesDepth CasesWork CasesTarget CasesAttack CasesIdGame CasesLate CasesTransfer CasesNest CasesCosts CasesScript CasesSalt CasesOpen CasesChoice CasesPick CasesOffer CasesPlay CasesSeek CasesShare CasesSettled CasesResting CasesDraw CasesFuse CasesFeed.
Local Open Scope nat_scope.

Theorem C107_ids : forall n U q k Op tag (I : Hasher -> commit_encode Op) (fields : Op -> list field) (adversary : prog (Op * Op))
  (strings : universe n U) (short : 162 <= n) (short_tag : length tag <= n) (few : modest n q adversary)
  (encoder : forall H, feeds_fields H tag fields (I H)),
  rare U (fun H => let '(v, w) := exec H adversary in
            fields v <> fields w /\ Forall2 same_kind (fields v) (fields w) /\
            small H n k tag (fields v) /\ small H n k tag (fields w) /\
            exists md md' id, @commit_id H Op md (I H) v = Ret id /\ @commit_id H Op md' (I H) w = Ret id)
       (N.of_nat (q + (2 * k + 4)) * N.of_nat (q + (2 * k + 3))) (2 ^ 257).
Proof. exact c107_ids. Qed.
Print Assumptions C107_ids.
Example C107_ids_case : exists U, universe 162 U /\ length (str "pair") <= 162 /\ modest 162 1 two_pairs /\
  (forall H, feeds_fields H (str "pair") rec_fields (recI H)) /\
  exists f, length f = length U /\ exec (table U f) two_pairs = ((5%N, [p1; p2]), (6%N, [p1; p2; p3])) /\
    rec_fields (5%N, [p1; p2]) <> rec_fields (6%N, [p1; p2; p3]) /\
    Forall2 same_kind (rec_fields (5%N, [p1; p2])) (rec_fields (6%N, [p1; p2; p3])) /\
    small (table U f) 162 8 (str "pair") (rec_fields (5%N, [p1; p2])) /\
    small (table U f) 162 8 (str "pair") (rec_fields (6%N, [p1; p2; p3])) /\
    @commit_id (table U f) _ Debug (recI (table U f)) (5%N, [p1; p2]) = Ret cflat /\
    @commit_id (table U f) _ Debug (recI (table U f)) (6%N, [p1; p2; p3]) = Ret cflat.
Proof. exact c107_ids_case. Qed.

Theorem C107_double_spend : forall n U q k Op Seal Pub PubId PubErr CliErr Issue Fail Warn Info Res tag
  (I : Hasher -> commit_encode Op) (fields : Op -> list field)
  (adversary : prog (bytes32 * (Op * merkle_proof) * (Op * merkle_proof)))
  (strings : universe n U) (short : 162 <= n) (short_tag : length tag <= n) (few : modest n q adversary)
  (encoder : forall H, feeds_fields H tag fields (I H)),
  rare U (fun H => let '(pid, (op, pf), (op', pf')) := exec H adversary in
            (fields op <> fields op' \/ pf <> pf') /\ Forall2 same_kind (fields op) (fields op') /\
            small H n k tag (fields op) /\ small H n k tag (fields op') /\
            spent_twice Op Seal Pub PubId PubErr CliErr Issue Fail Warn Info Res H (I H) pid op pf op' pf')
       (N.of_nat (q + (2 * k + 74)) * N.of_nat (q + (2 * k + 73))) (2 ^ 257).
Proof. exact c107_double_spend. Qed.
Print Assumptions C107_double_spend.
Example C107_double_spend_case : exists U, universe 162 U /\ length (str "op") <= 162 /\ modest 162 1 spender /\
  (forall H, feeds_fields H (str "op") op_fields opI) /\
  exists f, length f = length U /\ exec (table U f) spender = (p1, (5%N, pf1), (6%N, pf1)) /\
    op_fields 5 <> op_fields 6 /\ Forall2 same_kind (op_fields 5) (op_fields 6) /\
    small (table U f) 162 0 (str "op") (op_fields 5) /\ small (table U f) 162 0 (str "op") (op_fields 6) /\
    spent_twice N nat bytes32 nat unit unit nat nat nat nat nat (table U f) opI p1 5%N pf1 6%N pf1.
Proof. exact c107_double_spend_case. Qed.

Theorem C107_vectors : forall n U q k T tag (encode : T -> list byte) (adversary : prog (list T * list T))
  (strings : universe n U) (short : 162 <= n) (short_tag : length tag <= n) (few : modest n q adversary)
  (injective : forall a b, encode a = encode b -> a = b) (own_tag : tag <> s_node_tag),
  rare U (fun H => let '(xs, ys) := exec H adversary in
            let id x := @HASH H (@s_pre H tag (encode x)) in
            xs <> ys /\ length xs <= k /\ length ys <= k /\ (forall x, In x (xs ++ ys) -> length (encode x) + 64 <= n) /\
            exists r, @merklize_leaves H T id (vec_leaves xs) = Ret r /\ @merklize_leaves H T id (vec_leaves ys) = Ret r)
       (N.of_nat (q + (6 * k + 6)) * N.of_nat (q + (6 * k + 5))) (2 ^ 257).
Proof. exact c107_vectors. Qed.
Print Assumptions C107_vectors.
Example C107_vectors_case : exists U, universe 162 U /\ length s_commit_tag <= 162 /\ modest 162 1 two_colls /\
  (forall a b : bytes32, b32 a = b32 b -> a = b) /\ s_commit_tag <> s_node_tag /\
  exists f, length f = length U /\ exec (table U f) two_colls = ([p2; p1; p2], [p3]) /\
    (forall x, In x ([p2; p1; p2] ++ [p3]) -> length (b32 x) + 64 <= 162) /\
    let id x := @HASH (table U f) (@s_pre (table U f) s_commit_tag (b32 x)) in
    @merklize_leaves (table U f) _ id (vec_leaves [p2; p1; p2]) = Ret cflat /\ @merklize_leaves (table U f) _ id (vec_leaves [p3]) = Ret cflat.
Proof. exact c107_vectors_case. Qed.

Theorem C107_sets : forall n U q k T (ltb : T -> T -> bool) tag (encode : T -> list byte) (adversary : prog (list T * list T))
  (strings : universe n U) (short : 162 <= n) (short_tag : length tag <= n) (few : modest n q adversary)
  (order : StrictOrd ltb) (injective : forall a b, encode a = encode b -> a = b) (own_tag : tag <> s_node_tag),
  rare U (fun H => let '(xs, ys) := exec H adversary in
            let id x := @HASH H (@s_pre H tag (encode x)) in
            ~ (forall x, In x xs <-> In x ys) /\ length xs <= k /\ length ys <= k /\
            (forall x, In x (xs ++ ys) -> length (encode x) + 64 <= n) /\
            exists r, @merklize_leaves H T id (set_leaves (set_of ltb xs)) = Ret r /\
                      @merklize_leaves H T id (set_leaves (set_of ltb ys)) = Ret r)
       (N.of_nat (q + (6 * k + 6)) * N.of_nat (q + (6 * k + 5))) (2 ^ 257).
Proof. exact c107_sets. Qed.
Print Assumptions C107_sets.
Example C107_sets_case : exists U, universe 162 U /\ length s_commit_tag <= 162 /\ modest 162 1 two_colls /\ StrictOrd b32_ltb /\
  (forall a b : bytes32, b32 a = b32 b -> a = b) /\ s_commit_tag <> s_node_tag /\
  exists f, length f = length U /\ exec (table U f) two_colls = ([p2; p1; p2], [p3]) /\
    ~ (forall x, In x [p2; p1; p2] <-> In x [p3]) /\
    let id x := @HASH (table U f) (@s_pre (table U f) s_commit_tag (b32 x)) in
    @merklize_leaves (table U f) _ id (set_leaves (set_of b32_ltb [p2; p1; p2])) = Ret cflat /\
    @merklize_leaves (table U f) _ id (set_leaves (set_of b32_ltb [p3])) = Ret cflat.
Proof. exact c107_sets_case. Qed.

Theorem C107_numbers : forall n U q k Op Seal Pub PubId PubErr CliErr Issue Fail Warn Info Res tag
  (I : Hasher -> commit_encode Op) (fields : Op -> list field)
  (adversary : prog (bytes32 * (Op * merkle_proof) * (Op * merkle_proof)))
  (strings : universe n U) (short : 162 <= n) (short_tag : length tag <= n) (few : modest n q adversary)
  (encoder : forall H, feeds_fields H tag fields (I H))
  (work : (N.of_nat q <= 2 ^ 100)%N) (size : (N.of_nat k <= 2 ^ 64)%N),
  rare U (fun H => let '(pid, (op, pf), (op', pf')) := exec H adversary in
            fields op <> fields op' /\ Forall2 same_kind (fields op) (fields op') /\
            small H n k tag (fields op) /\ small H n k tag (fields op') /\
            spent_twice Op Seal Pub PubId PubErr CliErr Issue Fail Warn Info Res H (I H) pid op pf op' pf')
       1 (2 ^ 56).
Proof. exact c107_numbers. Qed.
Print Assumptions C107_numbers.
Example C107_numbers_case : modest 162 1 spender /\ (N.of_nat 1 <= 2 ^ 100)%N /\ (N.of_nat 0 <= 2 ^ 64)%N /\
  (forall H, feeds_fields H (str "op") op_fields opI).
Proof. exact c107_numbers_case. Qed.
