(** Clients validating against one medium: C82 *)
From Coq Require Import Permutation Sorting.Sorted.
From Verif Require Import Base BaseFacts OrdMap Strict Digest Merkle MpcAtoms MpcTree MpcBlock.
From Verif Require Import Engine EngineIo Schemes Seals Api Vesper Sha256 Ripemd Dumb Text Loops Orders Suites MpcTests Serde Steps Work Costs.
From Verif Require Import SpecHash SpecTree SpecMerkle SpecFull SpecValid SpecCommit SpecDerived SpecBlock.
From Verif Require Import SpecBuoy SpecStrings SpecCodec SpecLayout SpecEngine SpecMisc SpecSha SpecDerive SpecLocal SpecSession SpecRipemd SpecEnd Stl SpecStl SpecQuery SpecCount SpecText SpecOrders SpecFind SpecForm SpecGame SpecHideGame SpecViewGame SpecBlockGame SpecSuites SpecExtend SpecCompress SpecTests SpecSerde SpecTalk SpecMany SpecDepth SpecTarget SpecIdGame SpecLate SpecTransfer SpecNest SpecScript SpecSalt SpecOpen SpecChoice SpecPick SpecOffer SpecPlay SpecSeek SpecShare SpecSettled SpecResting SpecDraw SpecFuse SpecFeed.
From Verif Require Import TheoremsMpc TheoremsBlock TheoremsMerkle TheoremsMisc TheoremsMore TheoremsExt TheoremsAdv TheoremsLocal TheoremsSession TheoremsHash TheoremsHide TheoremsEnd TheoremsStl TheoremsQuery TheoremsCount TheoremsText TheoremsFrame TheoremsLoops TheoremsTight TheoremsOrders TheoremsFind TheoremsForm TheoremsGame TheoremsHideGame TheoremsViewGame TheoremsBlockGame TheoremsSuites TheoremsExtend TheoremsCompress TheoremsTests TheoremsSerde TheoremsTalk TheoremsMany TheoremsDepth TheoremsWork TheoremsTarget TheoremsAttack TheoremsIdGame TheoremsLate TheoremsTransfer TheoremsNest TheoremsCosts TheoremsScript TheoremsSalt TheoremsOpen TheoremsChoice TheoremsPick TheoremsOffer TheoremsPlay TheoremsSeek TheoremsShare TheoremsSettled TheoremsResting TheoremsDraw TheoremsFuse TheoremsFeed.
From Verif Require Import CasesMpc CasesMisc CasesMore CasesExt CasesAdv CasesLocal CasesSession CasesHash CasesHide CasesEnd CasesStl CasesQuery CasesCount CasesText CasesFrame CasesLoops CasesTight CasesOrders CasesFind CasesForm CasesGame CasesHideGame CasesViewGame CasesBlockGame CasesSuites CasesExtend CasesCompress CasesTests CasesSerde CasesTalk CasesMany CasesDepth CasesWork CasesTarget CasesAttack CasesIdGame CasesLate CasesTransfer CasesNest CasesCosts CasesScript CasesSalt CasesOpen CasesChoice CasesPick CasesOffer CasesPlay CasesSeek CasesShare CasesSettled CasesResting CasesDraw CasesFuse CasesFeed.
Local Open Scope nat_scope.

Theorem C82_no_double_spend : forall (H : Hasher) Op Seal Pub PubId PubErr CliErr
    (medium : Seal -> option Pub) (P : seal_protocol Seal bytes32 Pub merkle_proof bytes32 PubId PubErr CliErr)
    md md' pid (I : commit_encode Op) (fields : Op -> list field)
    Issue Fail Warn Info Res Issue' Fail' Warn' Info' Res'
    (resolve : Res -> claim Op Seal Pub -> result unit Issue * Res)
    (resolve' : Res' -> claim Op Seal Pub -> result unit Issue' * Res')
    (self : client_data Issue Fail Warn Info (claim Op Seal Pub)) items r
    (self' : client_data Issue' Fail' Warn' Info' (claim Op Seal Pub)) items' r'
    s op op' pub pf pub' pf' bs bs' L L'
  (client : forall w x c, sl_convolve P w x = Ok c -> exists d, convolve d w pid x = Ret (Ok c))
  (one_commitment : forall pub p q v w, sl_verify_commitment P pub p = Ok v -> sl_verify_commitment P pub q = Ok w -> p = q)
  (encoder : forall d v, ce_encode I d v (engine_new (ce_tag I)) = run d (fields v) (engine_new (ce_tag I)))
  (regular : Forall2 same_kind (fields op) (fields op'))
  (faithful : fields op = fields op' -> op = op')
  (careful : trusts_only_closed medium P md I resolve) (careful' : trusts_only_closed medium P md' I resolve')
  (accepted : status_validity (fst (client_side_validate resolve self items r)) = Valid)
  (accepted' : status_validity (fst (client_side_validate resolve' self' items' r')) = Valid)
  (spent : claims items (s, op, (pub, pf))) (spent' : claims items' (s, op', (pub', pf')))
  (bytes : Forall2 feeds (fields op) bs) (bytes' : Forall2 feeds (fields op') bs')
  (hashed : fields_hashed (fields op) L) (hashed' : fields_hashed (fields op') L'),
  let id := HASH (s_pre (ce_tag I) (concat bs)) in let id' := HASH (s_pre (ce_tag I) (concat bs')) in
  (op = op' /\ pub = pub' /\ pf = pf') \/
  collision_in ((proof_pre pf pid id ++ proof_pre pf' pid id') ++
                (s_pre (ce_tag I) (concat bs) :: L) ++ (s_pre (ce_tag I) (concat bs') :: L')).
Proof. exact c82_no_double_spend. Qed.
Print Assumptions C82_no_double_spend.
Example C82_no_double_spend_case :
  (forall w x c, sl_convolve mpc_protocol w x = Ok c -> exists d, @convolve toy d w p1 x = Ret (Ok c)) /\
  (forall pub p q v w, sl_verify_commitment mpc_protocol pub p = Ok v -> sl_verify_commitment mpc_protocol pub q = Ok w -> p = q) /\
  (forall d v, ce_encode opI d v (@engine_new toy (ce_tag opI)) = @run toy d (op_fields v) (@engine_new toy (ce_tag opI))) /\
  Forall2 same_kind (op_fields 5) (op_fields 6) /\ (op_fields 5 = op_fields 6 -> 5%N = 6%N) /\
  @trusts_only_closed toy N nat (list nat * bytes32) (list nat) unit unit medium0 mpc_protocol Debug opI nat nat resolve0 /\
  claims [item0; item0] (1, 5%N, (([1; 2], co), pfo)) /\ claims [item6] (1, 6%N, (([1; 2], co), pfo)) /\
  status_validity (fst (client_side_validate resolve0 item0 [item0; item0] 0)) = Valid /\
  status_validity (fst (client_side_validate resolve0 item0 [item6] 0)) = SealIssues /\
  Forall2 (@feeds toy) (op_fields 5) [[x05]] /\ @fields_hashed toy (op_fields 5) [].
Proof. exact c82_no_double_spend_case. Qed.

Theorem C82_honest : forall (H : Hasher) Op Seal Pub PubId PubErr CliErr
    (medium : Seal -> option Pub) (P : seal_protocol Seal bytes32 Pub merkle_proof bytes32 PubId PubErr CliErr)
    md pid (I : commit_encode Op) Issue Fail Warn Info Res
    (resolve : Res -> claim Op Seal Pub -> result unit Issue * Res)
    (self : client_data Issue Fail Warn Info (claim Op Seal Pub)) items r
  (client : forall w x c, convolve md w pid x = Ret (Ok c) -> sl_convolve P w x = Ok c)
  (capable : trusts_closed medium P md I resolve)
  (consistent : status_validity (cd_consistency self) = Valid)
  (consistent' : forall it, In it items -> status_validity (cd_consistency it) = Valid)
  (honest : forall s op pub pf, claims items (s, op, (pub, pf)) ->
     exists id src rng t c, commit_id md I op = Ret id /\ medium s = Some pub /\
       valid_source src /\ try_commit src rng = Ret (Ok t) /\ tree_commit_id md t = Ret c /\ In (pid, id) (ms_messages src) /\
       to_merkle_proof md (block_of_tree t) pid = Ret (Ok pf) /\
       sl_verify_commitment P pub c = Ok tt /\ sl_is_included P s id (pub, pf) = true),
  status_validity (fst (client_side_validate resolve self items r)) = Valid.
Proof. exact c82_honest. Qed.
Print Assumptions C82_honest.
Example C82_honest_case :
  (forall w x c, @convolve toy Debug w p1 x = Ret (Ok c) -> sl_convolve mpc_protocol w x = Ok c) /\
  @trusts_closed toy N nat (list nat * bytes32) (list nat) unit unit medium0 mpc_protocol Debug opI nat nat resolve0 /\
  status_validity (cd_consistency item0) = Valid /\
  (forall s op pub pf, claims [item0] (s, op, (pub, pf)) ->
     exists id src rng t c, @commit_id toy N Debug opI op = Ret id /\ medium0 s = Some pub /\
       valid_source src /\ try_commit src rng = Ret (Ok t) /\ @tree_commit_id toy Debug t = Ret c /\ In (p1, id) (ms_messages src) /\
       @to_merkle_proof toy Debug (@block_of_tree toy t) p1 = Ret (Ok pf) /\
       sl_verify_commitment mpc_protocol pub c = Ok tt /\ sl_is_included mpc_protocol s id (pub, pf) = true).
Proof. exact c82_honest_case. Qed.
