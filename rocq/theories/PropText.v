(** Texts: C87 *)
From Coq Require Import Permutation Sorting.Sorted.
From Verif Require Import Base BaseFacts OrdMap Strict Digest Merkle MpcAtoms MpcTree MpcBlock.
From Verif Require Import Engine EngineIo Schemes Seals Api Vesper Sha256 Ripemd Dumb Text Loops Orders Suites MpcTests Serde Steps Work Costs.
From Verif Require Import SpecHash SpecTree SpecMerkle SpecFull SpecValid SpecCommit SpecDerived SpecBlock.
From Verif Require Import SpecBuoy SpecStrings SpecCodec SpecLayout SpecEngine SpecMisc SpecSha SpecDerive SpecLocal SpecSession SpecRipemd SpecEnd Stl SpecStl SpecQuery SpecCount SpecText SpecOrders SpecFind SpecForm SpecGame SpecHideGame SpecViewGame SpecBlockGame SpecSuites SpecExtend SpecCompress SpecTests SpecSerde SpecTalk SpecMany SpecDepth SpecTarget SpecIdGame SpecLate SpecTransfer SpecNest SpecScript SpecSalt SpecOpen SpecChoice SpecPick SpecOffer SpecPlay SpecSeek SpecShare SpecSettled SpecResting SpecDraw SpecFuse SpecFeed.
From Verif Require Import TheoremsMpc TheoremsBlock TheoremsMerkle TheoremsMisc TheoremsMore TheoremsExt TheoremsAdv TheoremsLocal TheoremsSession TheoremsHash TheoremsHide TheoremsEnd TheoremsStl TheoremsQuery TheoremsCount TheoremsText TheoremsFrame TheoremsLoops TheoremsTight TheoremsOrders TheoremsFind TheoremsForm TheoremsGame TheoremsHideGame TheoremsViewGame TheoremsBlockGame TheoremsSuites TheoremsExtend TheoremsCompress TheoremsTests TheoremsSerde TheoremsTalk TheoremsMany TheoremsDepth TheoremsWork TheoremsTarget TheoremsAttack TheoremsIdGame TheoremsLate TheoremsTransfer TheoremsNest TheoremsCosts TheoremsScript TheoremsSalt TheoremsOpen TheoremsChoice TheoremsPick TheoremsOffer TheoremsPlay TheoremsSeek TheoremsShare TheoremsSettled TheoremsResting TheoremsDraw TheoremsFuse TheoremsFeed.
From Verif Require Import CasesMpc CasesMisc CasesMore CasesExt CasesAdv CasesLocal CasesSession CasesHash CasesHide CasesEnd CasesStl CasesQuery CasesCount CasesText CasesFrame CasesLoops CasesTight CasesOrders CasesFind CasesForm CasesGame CasesHideGame CasesViewGame CasesBlockGame CasesSuites CasesExtend CasesCompress CasesTests CasesSerde CasesTalk CasesMany CasesDepth CasesWork CasesTarget CasesAttack CasesIdGame CasesLate CasesTransfer CasesNest CasesCosts CasesScript CasesSalt CasesOpen CasesChoice CasesPick CasesOffer CasesPlay CasesSeek CasesShare CasesSettled CasesResting CasesDraw CasesFuse CasesFeed.
Local Open Scope nat_scope.

Theorem C87_text : forall x, hex_of (b32 x) (id_text x) /\ String.length (id_text x) = 64 /\
  (forall s, hex_of (b32 x) s -> s = id_text x).
Proof. exact c87_text. Qed.
Print Assumptions C87_text.
Example C87_text_case : hex_of [x0a; xf7] "0af7" /\ String.length hex_p1 = 64.
Proof. exact c87_text_case. Qed.

Theorem C87_parse : forall s x, id_parse s = Some x <-> hex_of (b32 x) (lower s).
Proof. exact c87_parse. Qed.
Print Assumptions C87_parse.
Example C87_parse_case : lower "0aF7" = "0af7"%string /\ bytes_parse "0aF7" = Some [x0a; xf7] /\ bytes_parse "0aF" = None /\
  bytes_parse "0g" = None /\ id_parse "0aF7" = None /\ hex_of (b32 p1) (lower hex_p1).
Proof. exact c87_parse_case. Qed.

Theorem C87_roundtrip : forall x, id_parse (id_text x) = Some x.
Proof. exact c87_roundtrip. Qed.
Print Assumptions C87_roundtrip.
Example C87_roundtrip_case : id_parse (id_text p1) = Some p1 /\ id_text p1 <> id_text p2.
Proof. exact c87_roundtrip_case. Qed.

Theorem C87_slice : forall l x, b32_of l = Some x <-> l = b32 x.
Proof. exact c87_slice. Qed.
Print Assumptions C87_slice.
Example C87_slice_case : b32_of (b32 p1) = Some p1 /\ b32_of (x00 :: b32 p1) = None.
Proof. exact c87_slice_case. Qed.

Theorem C87_errors :
  (forall p q, leaf_not_known_text p = leaf_not_known_text q -> p = q) /\
  (forall e f, invalid_proof_text e = invalid_proof_text f -> e = f) /\
  (forall e f, merge_error_text e = merge_error_text f -> e = f) /\
  (forall e f, commit_error_text e = commit_error_text f -> e = f).
Proof. exact c87_errors. Qed.
Print Assumptions C87_errors.
Example C87_errors_case : commit_error_text (CantFitInMaxSlots 12) =
    "the provided number of messages (12) can't fit LNPBP-4 commitment size limits for a given set of protocol ids."%string /\
  commit_error_text (TooManyMessages 12) <> commit_error_text (CantFitInMaxSlots 12) /\
  invalid_proof_text (InvalidProof p1 1 23 4) <> invalid_proof_text (InvalidProof p1 12 3 4).
Proof. exact c87_errors_case. Qed.

Theorem C87_verdicts :
  (forall e f, verify_error_text e = verify_error_text f -> e = f) /\
  (forall e f, convolve_error_text e = convolve_error_text f -> e = f) /\
  (forall v w, validity_text v = validity_text w -> v = w) /\
  (forall E (show : E -> string), (forall x y, show x = show y -> x = y) ->
     forall e f, embed_error_text show e = embed_error_text show f -> e = f).
Proof. exact c87_verdicts. Qed.
Print Assumptions C87_verdicts.
Example C87_verdicts_case : validity_text SealIssues = "unresolved seal issues"%string /\
  verify_error_text InvalidMessage <> verify_error_text InvalidCommitment /\
  (forall n m, num_text n = num_text m -> n = m).
Proof. exact c87_verdicts_case. Qed.
