(** What the suites for commitment schemes establish: C96 *)
From Coq Require Import Permutation Sorting.Sorted.
From Verif Require Import Base BaseFacts OrdMap Strict Digest Merkle MpcAtoms MpcTree MpcBlock.
From Verif Require Import Engine EngineIo Schemes Seals Api Vesper Sha256 Ripemd Dumb Text Loops Orders Suites MpcTests Serde Steps Work Costs.
From Verif Require Import SpecHash SpecTree SpecMerkle SpecFull SpecValid SpecCommit SpecDerived SpecBlock.
From Verif Require Import SpecBuoy SpecStrings SpecCodec SpecLayout SpecEngine SpecMisc SpecSha SpecDerive SpecLocal SpecSession SpecRipemd SpecEnd Stl SpecStl SpecQuery SpecCount SpecText SpecOrders SpecFind SpecForm SpecGame SpecHideGame SpecViewGame SpecBlockGame SpecSuites SpecExtend SpecCompress SpecTests SpecSerde SpecTalk SpecMany SpecDepth SpecTarget SpecIdGame SpecLate SpecTransfer SpecNest SpecScript SpecSalt SpecOpen SpecChoice SpecPick SpecOffer SpecPlay SpecSeek SpecShare SpecSettled SpecResting SpecDraw SpecFuse SpecFeed.
From Verif Require Import TheoremsMpc TheoremsBlock TheoremsMerkle TheoremsMisc TheoremsMore TheoremsExt TheoremsAdv TheoremsLocal TheoremsSession TheoremsHash TheoremsHide TheoremsEnd TheoremsStl TheoremsQuery TheoremsCount TheoremsText TheoremsFrame TheoremsLoops TheoremsTight TheoremsOrders TheoremsFind TheoremsForm TheoremsGame TheoremsHideGame TheoremsViewGame TheoremsBlockGame TheoremsSuites TheoremsExtend TheoremsCompress TheoremsTests TheoremsSerde TheoremsTalk TheoremsMany TheoremsDepth TheoremsWork TheoremsTarget TheoremsAttack TheoremsIdGame TheoremsLate TheoremsTransfer TheoremsNest TheoremsCosts TheoremsScript TheoremsSalt TheoremsOpen TheoremsChoice TheoremsPick TheoremsOffer TheoremsPlay TheoremsSeek TheoremsShare TheoremsSettled TheoremsResting TheoremsDraw TheoremsFuse TheoremsFeed.
From Verif Require Import CasesMpc CasesMisc CasesMore CasesExt CasesAdv CasesLocal CasesSession CasesHash CasesHide CasesEnd CasesStl CasesQuery CasesCount CasesText CasesFrame CasesLoops CasesTight CasesOrders CasesFind CasesForm CasesGame CasesHideGame CasesViewGame CasesBlockGame CasesSuites CasesExtend CasesCompress CasesTests CasesSerde CasesTalk CasesMany CasesDepth CasesWork CasesTarget CasesAttack CasesIdGame CasesLate CasesTransfer CasesNest CasesCosts CasesScript CasesSalt CasesOpen CasesChoice CasesPick CasesOffer CasesPlay CasesSeek CasesShare CasesSettled CasesResting CasesDraw CasesFuse CasesFeed.
Local Open Scope nat_scope.

Theorem C96_commit : forall Msg Cmt (I : commit_verify Msg Cmt) meq messages (cmt_eq : decides (cv_eq I)) (msg_eq : decides meq),
  commit_verify_suite I meq messages = Ret tt <-> commit_sound I messages.
Proof. exact c96_commit. Qed.
Print Assumptions C96_commit.
Example C96_commit_case : decides (cv_eq by_hash) /\ decides (cv_eq by_head) /\ decides bytes_eqb /\
  commit_verify_suite by_hash bytes_eqb gen_messages = Ret tt /\ commit_verify_suite by_head bytes_eqb gen_messages = Panic PAssert /\
  commit_verify_suite by_head bytes_eqb [[x01; x02]; [x02; x02]] = Ret tt /\ commit_verify_suite by_hash bytes_eqb [[x01]; [x01]] = Panic PAssert.
Proof. exact c96_commit_case. Qed.

Theorem C96_embed : forall Msg Cont Proof E (I : embed_scheme Msg Cont Proof E) meq messages container
  (cont_eq : decides (em_cont_eq I)) (msg_eq : decides meq),
  embed_commit_verify_suite I meq messages container = Ret tt <-> embed_sound I messages container.
Proof. exact c96_embed. Qed.
Print Assumptions C96_embed.
Example C96_embed_case : decides (em_cont_eq dummy_embed) /\ decides bytes_eqb /\
  embed_commit_verify_suite dummy_embed bytes_eqb gen_messages [] = Ret tt /\
  embed_commit_verify_suite head_embed bytes_eqb gen_messages [] = Panic PAssert.
Proof. exact c96_embed_case. Qed.

Theorem C96_convolve : forall Msg Src Cmt E (I : convolve_scheme Msg Src bytes32 Cmt bytes32 E) meq messages container
  (cmt_eq : decides (cc_cmt_eq I)) (msg_eq : decides meq),
  convolve_commit_verify_suite I meq messages container = Ret tt <-> convolve_sound I messages container.
Proof. exact c96_convolve. Qed.
Print Assumptions C96_convolve.
Example C96_convolve_case : decides (cc_cmt_eq (@dummy_convolve sha256)) /\ decides bytes_eqb /\
  convolve_commit_verify_suite (@dummy_convolve sha256) bytes_eqb gen_messages fifteen = Ret tt /\
  convolve_commit_verify_suite (@dummy_convolve flat) bytes_eqb gen_messages fifteen = Panic PAssert.
Proof. exact c96_convolve_case. Qed.

Theorem C96_dummy_embed : forall messages container (distinct : NoDup messages),
  embed_commit_verify_suite dummy_embed bytes_eqb messages container = Ret tt.
Proof. exact c96_dummy_embed. Qed.
Print Assumptions C96_dummy_embed.
Example C96_dummy_embed_case : NoDup gen_messages.
Proof. exact c96_dummy_embed_case. Qed.

Theorem C96_embed_refuted : exists Msg Cont Proof E (I : embed_scheme Msg Cont Proof E) meq c a b p q,
  decides (em_cont_eq I) /\ decides meq /\ em_lawful I /\
  (forall messages container, NoDup messages -> embed_commit_verify_suite I meq messages container = Ret tt) /\
  a <> b /\ em_verify I c a p = Ok tt /\ em_verify I c b q = Ok tt.
Proof. exact c96_embed_refuted. Qed.
Print Assumptions C96_embed_refuted.

Theorem C96_order_refuted : exists Msg Cont Proof E (I : embed_scheme Msg Cont Proof E) meq a b container,
  decides (em_cont_eq I) /\ decides meq /\
  embed_commit_verify_suite I meq [a; b] container = Ret tt /\ embed_commit_verify_suite I meq [b; a] container = Panic PAssert.
Proof. exact c96_order_refuted. Qed.
Print Assumptions C96_order_refuted.

Theorem C96_dummy_convolve : forall (H : Hasher) messages container (distinct : NoDup messages),
  (convolve_commit_verify_suite dummy_convolve bytes_eqb messages container = Ret tt \/ collision_in (map dummy_pre messages)) /\
  (forall other s m, cc_commit dummy_convolve other s m = cc_commit dummy_convolve container s m).
Proof. exact c96_dummy_convolve. Qed.
Print Assumptions C96_dummy_convolve.
Example C96_dummy_convolve_case : NoDup gen_messages /\
  @collision_in flat (map dummy_pre gen_messages).
Proof. exact c96_dummy_convolve_case. Qed.

Theorem C96_own : forall (H : Hasher) container,
  as_documented gen_messages /\ NoDup gen_messages /\
  embed_commit_verify_suite dummy_embed bytes_eqb gen_messages container = Ret tt /\
  (convolve_commit_verify_suite dummy_convolve bytes_eqb gen_messages container = Ret tt \/ collision_in (map dummy_pre gen_messages)).
Proof. exact c96_own. Qed.
Print Assumptions C96_own.
Example C96_own_case : convolve_commit_verify_suite (@dummy_convolve sha256) bytes_eqb gen_messages fifteen = Ret tt /\
  @collision_in flat (map dummy_pre gen_messages).
Proof. exact c96_own_case. Qed.
