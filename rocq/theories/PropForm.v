(** Texts of errors follow their templates; debug texts: C91 *)
From Coq Require Import Permutation Sorting.Sorted.
From Verif Require Import Base BaseFacts OrdMap Strict Digest Merkle MpcAtoms MpcTree MpcBlock.
From Verif Require Import Engine EngineIo Schemes Seals Api Vesper Sha256 Ripemd Dumb Text Loops Orders Suites MpcTests Serde Steps Work Costs.
From Verif Require Import SpecHash SpecTree SpecMerkle SpecFull SpecValid SpecCommit SpecDerived SpecBlock.
From Verif Require Import SpecBuoy SpecStrings SpecCodec SpecLayout SpecEngine SpecMisc SpecSha SpecDerive SpecLocal SpecSession SpecRipemd SpecEnd Stl SpecStl SpecQuery SpecCount SpecText SpecOrders SpecFind SpecForm SpecGame SpecHideGame SpecViewGame SpecBlockGame SpecSuites SpecExtend SpecCompress SpecTests SpecSerde SpecTalk SpecMany SpecDepth SpecTarget SpecIdGame SpecLate SpecTransfer SpecNest SpecScript SpecSalt SpecOpen SpecChoice SpecPick SpecOffer SpecPlay SpecSeek SpecShare SpecSettled SpecResting SpecDraw SpecFuse SpecFeed.
From Verif Require Import TheoremsMpc TheoremsBlock TheoremsMerkle TheoremsMisc TheoremsMore TheoremsExt TheoremsAdv TheoremsLocal TheoremsSession TheoremsHash TheoremsHide TheoremsEnd TheoremsStl TheoremsQuery TheoremsCount TheoremsText TheoremsFrame TheoremsLoops TheoremsTight TheoremsOrders TheoremsFind TheoremsForm TheoremsGame TheoremsHideGame TheoremsViewGame TheoremsBlockGame TheoremsSuites TheoremsExtend TheoremsCompress TheoremsTests TheoremsSerde TheoremsTalk TheoremsMany TheoremsDepth TheoremsWork TheoremsTarget TheoremsAttack TheoremsIdGame TheoremsLate TheoremsTransfer TheoremsNest TheoremsCosts TheoremsScript TheoremsSalt TheoremsOpen TheoremsChoice TheoremsPick TheoremsOffer TheoremsPlay TheoremsSeek TheoremsShare TheoremsSettled TheoremsResting TheoremsDraw TheoremsFuse TheoremsFeed.
From Verif Require Import CasesMpc CasesMisc CasesMore CasesExt CasesAdv CasesLocal CasesSession CasesHash CasesHide CasesEnd CasesStl CasesQuery CasesCount CasesText CasesFrame CasesLoops CasesTight CasesOrders CasesFind CasesForm CasesGame CasesHideGame CasesViewGame CasesBlockGame CasesSuites CasesExtend CasesCompress CasesTests CasesSerde CasesTalk CasesMany CasesDepth CasesWork CasesTarget CasesAttack CasesIdGame CasesLate CasesTransfer CasesNest CasesCosts CasesScript CasesSalt CasesOpen CasesChoice CasesPick CasesOffer CasesPlay CasesSeek CasesShare CasesSettled CasesResting CasesDraw CasesFuse CasesFeed.
Local Open Scope nat_scope.

Local Open Scope string_scope.
Theorem C91_templates :
  (forall p, leaf_not_known_text p =
     template "commitment under protocol id {0} is absent from the known part of a given LNPBP-4 Merkle block."
       [("0", id_text p)]) /\
  (forall e, invalid_proof_text e =
     template "the provided merkle proof protocol id {protocol_id} position {actual} doesn't match the expected position {expected} within the tree of width {width}."
       [("protocol_id", id_text (ip_protocol_id e)); ("expected", num_text (ip_expected e));
        ("actual", num_text (ip_actual e)); ("width", num_text (ip_width e))]) /\
  (forall a b, merge_error_text (UnrelatedBlocks a b) =
     template "attempt to merge two unrelated LNPBP-4 blocks with different Merkle roots (base {base_root}, merged-in {merged_root})."
       [("base_root", id_text a); ("merged_root", id_text b)]) /\
  (forall e, merge_error_text (MInvalidProof e) = invalid_proof_text e) /\
  commit_error_text Empty = "can't create commitment for an empty message list and zero tree depth." /\
  (forall n, commit_error_text (TooManyMessages n) =
     template "number of messages ({0}) for LNPBP-4 commitment which exceeds the protocol limit of 2^16"
       [("0", num_text (N.of_nat n))]) /\
  (forall n, commit_error_text (CantFitInMaxSlots n) =
     template "the provided number of messages ({0}) can't fit LNPBP-4 commitment size limits for a given set of protocol ids."
       [("0", num_text (N.of_nat n))]).
Proof. exact c91_templates. Qed.
Print Assumptions C91_templates.
Example C91_templates_case : commit_error_text (TooManyMessages 70) =
    "number of messages (70) for LNPBP-4 commitment which exceeds the protocol limit of 2^16" /\
  template "{b}, {a}." [("a", "x"); ("b", "y")] = "y, x.".
Proof. exact c91_templates_case. Qed.

Theorem C91_verdicts : forall E (show : E -> string),
  verify_error_text InvalidCommitment = "commitment doesn't match the message." /\
  verify_error_text InvalidMessage = "the message is invalid since a valid commitment to it can't be created." /\
  convolve_error_text CvCommitmentMismatch = verify_error_text InvalidCommitment /\
  convolve_error_text CvImpossibleMessage = verify_error_text InvalidMessage /\
  convolve_error_text CvInvalidProof = "the proof is invalid and the commitment can't be verified." /\
  embed_error_text show EvCommitmentMismatch = verify_error_text InvalidCommitment /\
  (forall x, embed_error_text show (EvInvalidMessage x) =
     template "{message} Details: {0}" [("message", verify_error_text InvalidMessage); ("0", show x)]) /\
  embed_error_text show EvInvalidProof =
    "the proof is invalid and the commitment can't be verified since the original container can't be restored from it." /\
  embed_error_text show EvProofMismatch =
    "the proof does not match to the proof generated for the same message during the verification." /\
  validity_text Valid = "valid" /\ validity_text SealIssues = "unresolved seal issues" /\ validity_text Invalid = "invalid".
Proof. exact c91_verdicts. Qed.
Print Assumptions C91_verdicts.
Example C91_verdicts_case : embed_error_text (fun _ : unit => "bad") (EvInvalidMessage tt) =
  "the message is invalid since a valid commitment to it can't be created. Details: bad".
Proof. exact c91_verdicts_case. Qed.

Theorem C91_seals : forall Seal PubId PubErr CliErr (ss : Seal -> string) (si : PubId -> string) (sp : PubErr -> string)
    (sc : CliErr -> string),
  (forall s i, seal_error_text ss si sp sc (SeNotIncluded s i) =
     template "seal {seal} is not included in the witness {pub_id}" [("seal", ss s); ("pub_id", si i)]) /\
  (forall x, seal_error_text ss si sp sc (SePublished x) = sp x) /\
  (forall x, seal_error_text ss si sp sc (SeClient x) = sc x).
Proof. exact c91_seals. Qed.
Print Assumptions C91_seals.
Example C91_seals_case : seal_error_text (fun n => num_text n) (fun _ : unit => "w") (fun _ : unit => "p") (fun _ : unit => "c")
  (SeNotIncluded 4%N tt) = "seal 4 is not included in the witness w".
Proof. exact c91_seals_case. Qed.

Theorem C91_debug : forall Seal PubId PubErr CliErr (ss : Seal -> string) (si : PubId -> string) (sp : PubErr -> string)
    (sc : CliErr -> string),
  (forall s i, tuple_text "SealError::NotIncluded" [ss s; si i] (seal_error_debug ss si sp sc (SeNotIncluded s i)) /\
     (nested (ss s) -> nested (si i) -> nested (seal_error_debug ss si sp sc (SeNotIncluded s i)))) /\
  (forall x, tuple_text "SealError::Published" [sp x] (seal_error_debug ss si sp sc (SePublished x)) /\
     (nested (sp x) -> nested (seal_error_debug ss si sp sc (SePublished x)))) /\
  (forall x (parts : nested (sc x)), ~ nested (seal_error_debug ss si sp sc (SeClient x)) /\
     forall name, ~ tuple_text name [sc x] (seal_error_debug ss si sp sc (SeClient x))).
Proof. exact c91_debug. Qed.
Print Assumptions C91_debug.
Example C91_debug_case : nested "a(b)" /\ ~ nested "a(b" /\
  seal_error_debug (fun n => num_text n) (fun _ : unit => "w") (fun _ : unit => "p") (fun _ : unit => "c") (SeNotIncluded 4%N tt)
    = "SealError::NotIncluded(4, w)" /\
  seal_error_debug (fun n => num_text n) (fun _ : unit => "w") (fun _ : unit => "p") (fun _ : unit => "c") (SeClient tt)
    = "SealError::Client(err(c)".
Proof. exact c91_debug_case. Qed.
