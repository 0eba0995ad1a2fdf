(** Values nested to any depth: C110 *)
From Coq Require Import Permutation Sorting.Sorted.
From Verif Require Import Base BaseFacts OrdMap Strict Digest Merkle MpcAtoms MpcTree MpcBlock.
From Verif Require Import Engine EngineIo Schemes Seals Api Vesper Sha256 Ripemd Dumb Text Loops Orders Suites MpcTests Serde Steps Work Costs.
From Verif Require Import SpecHash SpecTree SpecMerkle SpecFull SpecValid SpecCommit SpecDerived SpecBlock.
From Verif Require Import SpecBuoy SpecStrings SpecCodec SpecLayout SpecEngine SpecMisc SpecSha SpecDerive SpecLocal SpecSession SpecRipemd SpecEnd Stl SpecStl SpecQuery SpecCount SpecText SpecOrders SpecFind SpecForm SpecGame SpecHideGame SpecViewGame SpecBlockGame SpecSuites SpecExtend SpecCompress SpecTests SpecSerde SpecTalk SpecMany SpecDepth SpecTarget SpecIdGame SpecLate SpecTransfer SpecNest SpecScript SpecSalt SpecOpen SpecChoice SpecPick SpecOffer SpecPlay SpecSeek SpecShare SpecSettled SpecResting SpecDraw SpecFuse SpecFeed.
From Verif Require Import TheoremsMpc TheoremsBlock TheoremsMerkle TheoremsMisc TheoremsMore TheoremsExt TheoremsAdv TheoremsLocal TheoremsSession TheoremsHash TheoremsHide TheoremsEnd TheoremsStl TheoremsQuery TheoremsCount TheoremsText TheoremsFrame TheoremsLoops TheoremsTight TheoremsOrders TheoremsFind TheoremsForm TheoremsGame TheoremsHideGame TheoremsViewGame TheoremsBlockGame TheoremsSuites TheoremsExtend TheoremsCompress TheoremsTests TheoremsSerde TheoremsTalk TheoremsMany TheoremsDepth TheoremsWork TheoremsTarget TheoremsAttack TheoremsIdGame TheoremsLate TheoremsTransfer TheoremsNest TheoremsCosts TheoremsScript TheoremsSalt TheoremsOpen TheoremsChoice TheoremsPick TheoremsOffer TheoremsPlay TheoremsSeek TheoremsShare TheoremsSettled TheoremsResting TheoremsDraw TheoremsFuse TheoremsFeed.
From Verif Require Import CasesMpc CasesMisc CasesMore CasesExt CasesAdv CasesLocal CasesSession CasesHash CasesHide CasesEnd CasesStl CasesQuery CasesCount CasesText CasesFrame CasesLoops CasesTight CasesOrders CasesFind CasesForm CasesGame CasesHideGame CasesViewGame CasesBlockGame CasesSuites CasesExtend CasesCompress CasesTests CasesSerde CasesTalk CasesMany CasesDepth CasesWork CasesTarget CasesAttack CasesIdGame CasesLate CasesTransfer CasesNest CasesCosts CasesScript CasesSalt CasesOpen CasesChoice CasesPick CasesOffer CasesPlay CasesSeek CasesShare CasesSettled CasesResting CasesDraw CasesFuse CasesFeed.
Local Open Scope nat_scope.

Theorem C110_strings : forall (H : Hasher) md v id (ok : composite_id md v = Ret id), exists L, hashes md v L.
Proof. exact c110_strings. Qed.
Print Assumptions C110_strings.
Example C110_strings_case : exists id, @composite_id toy Debug (deep_value 1 2 [3; 4; 5]%N) = Ret id.
Proof. exact c110_strings_case. Qed.

Theorem C110_extract : forall (H : Hasher) md md' v w id L L'
  (type : resembles v w) (ok1 : composite_id md v = Ret id) (ok2 : composite_id md' w = Ret id)
  (hashed1 : hashes md v L) (hashed2 : hashes md' w L'),
  v = w \/ second_in L L'.
Proof. exact c110_extract. Qed.
Print Assumptions C110_extract.
Example C110_extract_case : let v := deep_value 1 2 [3; 4; 5]%N in let w := deep_value 1 9 [7]%N in
  v <> w /\ resembles v w /\ exists id L L', @composite_id flat Debug v = Ret id /\ @composite_id flat Release w = Ret id /\
    @hashes flat Debug v L /\ @hashes flat Release w L'.
Proof. exact c110_extract_case. Qed.

Theorem C110_forged : forall n U q k m (adversary : prog (composite * composite))
  (strings : universe n U) (short : 162 <= n) (few : modest n q adversary),
  let Q := N.of_nat (q + m * (k + 2)) in
  rare U (fun H => let '(v, w) := exec H adversary in
            v <> w /\ resembles v w /\ nodes v + nodes w <= m /\
            exists md md' id, @handy H md n k v /\ @handy H md' n k w /\
              @composite_id H md v = Ret id /\ @composite_id H md' w = Ret id)
       (Q * (Q - 1)) (2 ^ 257).
Proof. exact c110_forged. Qed.
Print Assumptions C110_forged.
Example C110_forged_case : exists U, universe 162 U /\ modest 162 1 two_values /\
  exists f v w, length f = length U /\ exec (table U f) two_values = (v, w) /\ v <> w /\ resembles v w /\ nodes v + nodes w <= 10 /\
    @handy (table U f) Debug 162 8 v /\ @handy (table U f) Release 162 8 w /\
    @composite_id (table U f) Debug v = Ret cflat /\ @composite_id (table U f) Release w = Ret cflat.
Proof. exact c110_forged_case. Qed.

Theorem C110_replaced : forall n U q k m (made : list composite) (adversary : prog composite)
  (strings : universe n U) (short : 162 <= n) (few : modest n q adversary),
  let K := N.of_nat (list_sum (map nodes made) * (k + 2)) in
  rare U (fun H => let w := exec H adversary in
            nodes w <= m /\
            exists v md md' id, In v made /\ v <> w /\ resembles v w /\ @handy H md n k v /\ @handy H md' n k w /\
              @composite_id H md v = Ret id /\ @composite_id H md' w = Ret id)
       (K * (K - 1) + 2 * K * N.of_nat (q + m * (k + 2))) (2 ^ 257).
Proof. exact c110_replaced. Qed.
Print Assumptions C110_replaced.
Example C110_replaced_case : exists U, universe 162 U /\ modest 162 1 other_value /\
  exists f v w, length f = length U /\ exec (table U f) other_value = w /\ In v [small_value 1; deep_value 1 2 [3; 4; 5]%N] /\ v <> w /\ resembles v w /\ nodes w <= 4 /\
    @handy (table U f) Debug 162 8 v /\ @handy (table U f) Release 162 8 w /\
    @composite_id (table U f) Debug v = Ret cflat /\ @composite_id (table U f) Release w = Ret cflat.
Proof. exact c110_replaced_case. Qed.

Theorem C110_model : forall (H : Hasher) md X (I : commit_encode X) (parts : X -> list (part composite)) v
  (encoder : forall e, ce_encode I md v e = feed_parts md (composite_id md) (parts v) e),
  commit_id md I v = composite_id md (Composite (ce_tag I) (parts v)).
Proof. exact c110_model. Qed.
Print Assumptions C110_model.
Example C110_model_case : exists (I : commit_encode (N * N)) (parts : N * N -> list (part composite)),
  (forall v e, @ce_encode _ I Debug v e = @feed_parts toy _ Debug (@composite_id toy Debug) (parts v) e) /\
  exists id, @commit_id toy _ Debug I (5%N, 6%N) = Ret id.
Proof. exact c110_model_case. Qed.

Theorem C110_defined : forall (H : Hasher) md v, (exists id, composite_id md v = Ret id) <-> committable md v.
Proof. exact c110_defined. Qed.
Print Assumptions C110_defined.
Example C110_defined_case : committable Debug (deep_value 1 2 [3; 4; 5]%N) /\ ~ committable Debug (Composite [] (repeat (Plain (FSerialized u8t 1%N)) 256)) /\
  @composite_id toy Debug (Composite [] [Inner (SType "Lib" None) (small_value 1)]) = Panic PExpect.
Proof. exact c110_defined_case. Qed.

Theorem C110_wrapped : forall (H : Hasher) md tag before after t x id,
  composite_id md (Composite tag (before ++ Inner t x :: after)) = Ret id <->
  composite_id md (Composite tag (before ++ Inners t [x] :: after)) = Ret id.
Proof. exact c110_wrapped. Qed.
Print Assumptions C110_wrapped.
Example C110_wrapped_case : exists id, @composite_id toy Debug (Composite (str "x") ([Plain (FSerialized u8t 1%N)] ++ Inner idt (small_value 3) :: [])) = Ret id /\
  @composite_id toy Debug (Composite (str "x") ([Plain (FSerialized u8t 1%N)] ++ Inners idt [small_value 3] :: [])) = Ret id.
Proof. exact c110_wrapped_case. Qed.

Theorem C110_node_tag : forall (H : Hasher) md tag t (u8 : typed N) x y
  (named : exists q, has_fqn t q) (byte : exists q, has_fqn (ty u8) q) (codec : ty_codec u8 = c_le 1) (free : not_reserved_type (ty u8))
  (ok1 : committable md x) (ok2 : committable md y),
  exists id, composite_id md (Composite tag [Inners t [x; y]]) = Ret id /\
    composite_id md (Composite tag [Inners t [disguise u8 t x y]]) = Ret id.
Proof. exact c110_node_tag. Qed.
Print Assumptions C110_node_tag.
Example C110_node_tag_case : (exists q, has_fqn idt q) /\ (exists q, has_fqn (ty u8t) q) /\ ty_codec u8t = c_le 1 /\ not_reserved_type (ty u8t) /\
  committable Debug (small_value 1) /\ committable Debug (large_value 1 2 [3]%N) /\ small_value 1 <> large_value 1 2 [3]%N.
Proof. exact c110_node_tag_case. Qed.

Theorem C110_numbers : forall n U q k m (adversary : prog (composite * composite))
  (strings : universe n U) (short : 162 <= n) (few : modest n q adversary)
  (questions : (N.of_nat q <= 2 ^ 100)%N) (values : (N.of_nat m <= 2 ^ 40)%N) (leaves : (N.of_nat k <= 2 ^ 40)%N),
  rare U (fun H => let '(v, w) := exec H adversary in
            v <> w /\ resembles v w /\ nodes v + nodes w <= m /\
            exists md md' id, @handy H md n k v /\ @handy H md' n k w /\
              @composite_id H md v = Ret id /\ @composite_id H md' w = Ret id)
       1 (2 ^ 56).
Proof. exact c110_numbers. Qed.
Print Assumptions C110_numbers.
Example C110_numbers_case : modest 162 1 two_values /\ (N.of_nat 1 <= 2 ^ 100)%N /\ (N.of_nat 10 <= 2 ^ 40)%N /\ (N.of_nat 8 <= 2 ^ 40)%N.
Proof. exact c110_numbers_case. Qed.
