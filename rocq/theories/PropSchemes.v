(** Commitment schemes: C40-C42 *)
From Coq Require Import Permutation Sorting.Sorted.
From Verif Require Import Base BaseFacts OrdMap Strict Digest Merkle MpcAtoms MpcTree MpcBlock.
From Verif Require Import Engine EngineIo Schemes Seals Api Vesper Sha256 Ripemd Dumb Text Loops Orders Suites MpcTests Serde Steps Work Costs.
From Verif Require Import SpecHash SpecTree SpecMerkle SpecFull SpecValid SpecCommit SpecDerived SpecBlock.
From Verif Require Import SpecBuoy SpecStrings SpecCodec SpecLayout SpecEngine SpecMisc SpecSha SpecDerive SpecLocal SpecSession SpecRipemd SpecEnd Stl SpecStl SpecQuery SpecCount SpecText SpecOrders SpecFind SpecForm SpecGame SpecHideGame SpecViewGame SpecBlockGame SpecSuites SpecExtend SpecCompress SpecTests SpecSerde SpecTalk SpecMany SpecDepth SpecTarget SpecIdGame SpecLate SpecTransfer SpecNest SpecScript SpecSalt SpecOpen SpecChoice SpecPick SpecOffer SpecPlay SpecSeek SpecShare SpecSettled SpecResting SpecDraw SpecFuse SpecFeed.
From Verif Require Import TheoremsMpc TheoremsBlock TheoremsMerkle TheoremsMisc TheoremsMore TheoremsExt TheoremsAdv TheoremsLocal TheoremsSession TheoremsHash TheoremsHide TheoremsEnd TheoremsStl TheoremsQuery TheoremsCount TheoremsText TheoremsFrame TheoremsLoops TheoremsTight TheoremsOrders TheoremsFind TheoremsForm TheoremsGame TheoremsHideGame TheoremsViewGame TheoremsBlockGame TheoremsSuites TheoremsExtend TheoremsCompress TheoremsTests TheoremsSerde TheoremsTalk TheoremsMany TheoremsDepth TheoremsWork TheoremsTarget TheoremsAttack TheoremsIdGame TheoremsLate TheoremsTransfer TheoremsNest TheoremsCosts TheoremsScript TheoremsSalt TheoremsOpen TheoremsChoice TheoremsPick TheoremsOffer TheoremsPlay TheoremsSeek TheoremsShare TheoremsSettled TheoremsResting TheoremsDraw TheoremsFuse TheoremsFeed.
From Verif Require Import CasesMpc CasesMisc CasesMore CasesExt CasesAdv CasesLocal CasesSession CasesHash CasesHide CasesEnd CasesStl CasesQuery CasesCount CasesText CasesFrame CasesLoops CasesTight CasesOrders CasesFind CasesForm CasesGame CasesHideGame CasesViewGame CasesBlockGame CasesSuites CasesExtend CasesCompress CasesTests CasesSerde CasesTalk CasesMany CasesDepth CasesWork CasesTarget CasesAttack CasesIdGame CasesLate CasesTransfer CasesNest CasesCosts CasesScript CasesSalt CasesOpen CasesChoice CasesPick CasesOffer CasesPlay CasesSeek CasesShare CasesSettled CasesResting CasesDraw CasesFuse CasesFeed.
Local Open Scope nat_scope.

Theorem C40_commit_verify : forall Msg Cmt (I : commit_verify Msg Cmt) self msg
  (eq : forall x y, cv_eq I x y = true <-> x = y),
  (cv_verify I self msg = Ok tt <-> cv_commit I msg = self) /\
  (cv_verify I self msg = Err InvalidCommitment <-> cv_commit I msg <> self) /\
  cv_verify I self msg <> Err InvalidMessage.
Proof. exact c40_commit_verify. Qed.
Print Assumptions C40_commit_verify.
Example C40_commit_verify_case : (forall x y, cv_eq hash_scheme x y = true <-> x = y) /\
  cv_verify hash_scheme (@HASH toy [x01]) [x01] = Ok tt /\ cv_verify hash_scheme (@HASH toy [x01]) [x02] = Err InvalidCommitment.
Proof. exact c40_commit_verify_case. Qed.

Theorem C40_try_commit_verify : forall Msg Cmt E (I : try_commit_verify Msg Cmt E) self msg
  (eq : forall x y, tv_eq I x y = true <-> x = y),
  (tv_verify I self msg = Ret (Ok tt) <-> tv_try_commit I msg = Ret (Ok self)) /\
  (tv_verify I self msg = Ret (Err InvalidCommitment) <->
     exists c, tv_try_commit I msg = Ret (Ok c) /\ c <> self) /\
  (tv_verify I self msg = Ret (Err InvalidMessage) <-> exists e, tv_try_commit I msg = Ret (Err e)) /\
  (forall p, tv_verify I self msg = Panic p <-> tv_try_commit I msg = Panic p).
Proof. exact c40_try_commit_verify. Qed.
Print Assumptions C40_try_commit_verify.
Example C40_try_commit_verify_case : (forall x y, tv_eq byte_scheme x y = true <-> x = y) /\
  tv_verify byte_scheme x01 [x01] = Ret (Ok tt) /\ tv_verify byte_scheme x01 [x02] = Ret (Err InvalidCommitment) /\
  tv_verify byte_scheme x01 [x01; x01] = Ret (Err InvalidMessage) /\ tv_verify byte_scheme x01 [] = Panic PExpect.
Proof. exact c40_try_commit_verify_case. Qed.

Theorem C41_verdict : forall Msg Cont Proof E (I : embed_scheme Msg Cont Proof E) self msg proof r,
  em_verify I self msg proof = r <-> em_verdict I self msg proof r.
Proof. exact c41_verdict. Qed.
Print Assumptions C41_verdict.
Example C41_verdict_case : em_verify dummy_embed [x01; x02] [x02] [x01] = Ok tt /\
  em_verify dummy_embed [x01; x02] [x03] [x01] = Err EvCommitmentMismatch.
Proof. exact c41_verdict_case. Qed.

Theorem C41_complete : forall Msg Cont Proof E (I : embed_scheme Msg Cont Proof E) c msg c' p
  (lawful : em_lawful I) (committed : em_commit I c msg = Ok (c', p)), em_verify I c' msg p = Ok tt.
Proof. exact c41_complete. Qed.
Print Assumptions C41_complete.
Example C41_complete_case : em_lawful dummy_embed /\ em_commit dummy_embed [x01] [x02] = Ok ([x01; x02], [x01]).
Proof. exact c41_complete_case. Qed.

Theorem C41_sound : forall Msg Cont Proof E (I : embed_scheme Msg Cont Proof E) self msg msg' proof
  (ok1 : em_verify I self msg proof = Ok tt) (ok2 : em_verify I self msg' proof = Ok tt),
  exists c c1 p1 c2 p2, em_restore I proof self = Ok c /\
    em_commit I c msg = Ok (c1, p1) /\ em_commit I c msg' = Ok (c2, p2) /\
    em_cont_eq I self c1 = true /\ em_cont_eq I self c2 = true /\
    em_proof_eq I p1 proof = true /\ em_proof_eq I p2 proof = true.
Proof. exact c41_sound. Qed.
Print Assumptions C41_sound.
Example C41_sound_case : em_verify dummy_embed [x01; x02] [x02] [x01] = Ok tt.
Proof. exact c41_sound_case. Qed.

Theorem C41_never_proof_mismatch : forall Msg Cont Proof E (I : embed_scheme Msg Cont Proof E) self msg proof,
  em_restore I proof self <> Err EvProofMismatch -> em_verify I self msg proof <> Err EvProofMismatch.
Proof. exact c41_never_proof_mismatch. Qed.
Print Assumptions C41_never_proof_mismatch.
Example C41_never_proof_mismatch_case : forall p c, em_restore dummy_embed p c <> Err EvProofMismatch.
Proof. exact c41_never_proof_mismatch_case. Qed.

Theorem C42_verdict : forall Msg Src Suppl Cmt Proof E (I : convolve_scheme Msg Src Suppl Cmt Proof E) proof msg cmt r,
  cc_verify I proof msg cmt = r <-> cc_verdict I proof msg cmt r.
Proof. exact c42_verdict. Qed.
Print Assumptions C42_verdict.
Example C42_verdict_case : exists c, cc_commit (@dummy_convolve toy) [] p1 [x02] = Ok (c, p1) /\
  cc_verify (@dummy_convolve toy) p1 [x02] c = Ok tt /\ cc_verify (@dummy_convolve toy) p1 [x03] c = Err CvCommitmentMismatch.
Proof. exact c42_verdict_case. Qed.

Theorem C42_complete : forall Msg Src Suppl Cmt Proof E (I : convolve_scheme Msg Src Suppl Cmt Proof E) src s msg c p
  (lawful : cc_lawful I) (committed : cc_commit I src s msg = Ok (c, p)), cc_verify I p msg c = Ok tt.
Proof. exact c42_complete. Qed.
Print Assumptions C42_complete.
Example C42_complete_case : cc_lawful (@dummy_convolve toy) /\ exists c, cc_commit (@dummy_convolve toy) [] p1 [x02] = Ok (c, p1).
Proof. exact c42_complete_case. Qed.
