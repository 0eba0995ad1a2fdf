(** Validation statuses and seals: C43-C48 *)
From Coq Require Import Permutation Sorting.Sorted.
From Verif Require Import Base BaseFacts OrdMap Strict Digest Merkle MpcAtoms MpcTree MpcBlock.
From Verif Require Import Engine EngineIo Schemes Seals Api Vesper Sha256 Ripemd Dumb Text Loops Orders Suites MpcTests Serde Steps Work Costs.
From Verif Require Import SpecHash SpecTree SpecMerkle SpecFull SpecValid SpecCommit SpecDerived SpecBlock.
From Verif Require Import SpecBuoy SpecStrings SpecCodec SpecLayout SpecEngine SpecMisc SpecSha SpecDerive SpecLocal SpecSession SpecRipemd SpecEnd Stl SpecStl SpecQuery SpecCount SpecText SpecOrders SpecFind SpecForm SpecGame SpecHideGame SpecViewGame SpecBlockGame SpecSuites SpecExtend SpecCompress SpecTests SpecSerde SpecTalk SpecMany SpecDepth SpecTarget SpecIdGame SpecLate SpecTransfer SpecNest SpecScript SpecSalt SpecOpen SpecChoice SpecPick SpecOffer SpecPlay SpecSeek SpecShare SpecSettled SpecResting SpecDraw SpecFuse SpecFeed.
From Verif Require Import TheoremsMpc TheoremsBlock TheoremsMerkle TheoremsMisc TheoremsMore TheoremsExt TheoremsAdv TheoremsLocal TheoremsSession TheoremsHash TheoremsHide TheoremsEnd TheoremsStl TheoremsQuery TheoremsCount TheoremsText TheoremsFrame TheoremsLoops TheoremsTight TheoremsOrders TheoremsFind TheoremsForm TheoremsGame TheoremsHideGame TheoremsViewGame TheoremsBlockGame TheoremsSuites TheoremsExtend TheoremsCompress TheoremsTests TheoremsSerde TheoremsTalk TheoremsMany TheoremsDepth TheoremsWork TheoremsTarget TheoremsAttack TheoremsIdGame TheoremsLate TheoremsTransfer TheoremsNest TheoremsCosts TheoremsScript TheoremsSalt TheoremsOpen TheoremsChoice TheoremsPick TheoremsOffer TheoremsPlay TheoremsSeek TheoremsShare TheoremsSettled TheoremsResting TheoremsDraw TheoremsFuse TheoremsFeed.
From Verif Require Import CasesMpc CasesMisc CasesMore CasesExt CasesAdv CasesLocal CasesSession CasesHash CasesHide CasesEnd CasesStl CasesQuery CasesCount CasesText CasesFrame CasesLoops CasesTight CasesOrders CasesFind CasesForm CasesGame CasesHideGame CasesViewGame CasesBlockGame CasesSuites CasesExtend CasesCompress CasesTests CasesSerde CasesTalk CasesMany CasesDepth CasesWork CasesTarget CasesAttack CasesIdGame CasesLate CasesTransfer CasesNest CasesCosts CasesScript CasesSalt CasesOpen CasesChoice CasesPick CasesOffer CasesPlay CasesSeek CasesShare CasesSettled CasesResting CasesDraw CasesFuse CasesFeed.
Local Open Scope nat_scope.

Theorem C43_validity : forall Issue Fail Warn Info (s : status Issue Fail Warn Info),
  (status_validity s = Invalid <-> failures s <> []) /\
  (status_validity s = SealIssues <-> failures s = [] /\ seal_issues s <> []) /\
  (status_validity s = Valid <-> failures s = [] /\ seal_issues s = []).
Proof. exact c43_validity. Qed.
Print Assumptions C43_validity.
Example C43_validity_case : status_validity (Status (Issue := nat) (Fail := nat) (Warn := nat) (Info := nat) [] [] [1] [2]) = Valid /\
  status_validity st_issue = SealIssues /\ status_validity (add_assign st_issue st_fail) = Invalid.
Proof. exact c43_validity_case. Qed.

Theorem C43_only_worse : forall Issue Fail Warn Info (evs : list event) (s : status Issue Fail Warn Info),
  severity (status_validity s) <= severity (status_validity (fold_left apply_event evs s)).
Proof. exact c43_only_worse. Qed.
Print Assumptions C43_only_worse.
Example C43_only_worse_case :
  status_validity (fold_left apply_event [EvWarn 1; EvIssue 2; EvInfo 3; EvMerge st_fail] status_new) = Invalid.
Proof. exact c43_only_worse_case. Qed.

Theorem C43_start : forall Issue Fail Warn Info (f : Fail) (l : list Fail),
  status_validity (@status_new Issue Fail Warn Info) = Valid /\
  status_validity (@from_failure Issue Fail Warn Info f) = Invalid /\
  failures (@from_failure Issue Fail Warn Info f) = [f] /\
  failures (@status_from_iter Issue Fail Warn Info l) = l /\
  (status_validity (@status_from_iter Issue Fail Warn Info l) = Valid <-> l = []).
Proof. exact c43_start. Qed.
Print Assumptions C43_start.

Theorem C44_monoid : forall Issue Fail Warn Info (a b c : status Issue Fail Warn Info),
  add_assign (add_assign a b) c = add_assign a (add_assign b c) /\
  add_assign status_new a = a /\ add_assign a status_new = a /\
  status_validity (add_assign a b) = worse (status_validity a) (status_validity b).
Proof. exact c44_monoid. Qed.
Print Assumptions C44_monoid.
Example C44_monoid_case : add_assign st_issue st_fail = Status [1] [3] [2] [4] /\ add_assign st_issue st_fail = add_assign st_fail st_issue.
Proof. exact c44_monoid_case. Qed.

Theorem C44_events : forall Issue Fail Warn Info (evs : list event) (s : status Issue Fail Warn Info),
  let s' := fold_left apply_event evs s in
  seal_issues s' = seal_issues s ++ concat (map issues_of evs) /\
  failures s' = failures s ++ concat (map fails_of evs) /\
  warnings s' = warnings s ++ concat (map warns_of evs) /\
  info s' = info s ++ concat (map infos_of evs).
Proof. exact c44_events. Qed.
Print Assumptions C44_events.
Example C44_events_case : fold_left apply_event [EvWarn 1; EvIssue 2; EvInfo 3; EvMerge st_fail; EvIssue 5] st_issue =
  Status [1; 2; 5] [3] [2; 1] [3; 4].
Proof. exact c44_events_case. Qed.

Theorem C45_report : forall Issue Fail Warn Info Seal Res (resolve : Res -> Seal -> result unit Issue * Res)
    (self : client_data Issue Fail Warn Info Seal) items r st r'
  (validated : client_side_validate resolve self items r = (st, r')),
  exists xss, Forall2 (fun it xs => length xs = length (cd_seals it)) items xss /\
    resolves resolve r (concat (map cd_seals items)) (concat xss) r' /\
    st = joined (cd_consistency self) (reports items xss).
Proof. exact c45_report. Qed.
Print Assumptions C45_report.
Example C45_report_case :
  client_side_validate odd_resolver own [item1; item2] 0 = (Status [1; 3; 5] [3] [2] [4], 4) /\
  resolves odd_resolver 0 [2; 3; 4; 5] [Ok tt; Err 3; Ok tt; Err 5] 4.
Proof. exact c45_report_case. Qed.

Theorem C45_valid : forall Issue Fail Warn Info Seal Res (resolve : Res -> Seal -> result unit Issue * Res)
    (self : client_data Issue Fail Warn Info Seal) items r st r' xs
  (validated : client_side_validate resolve self items r = (st, r'))
  (resolved : resolves resolve r (concat (map cd_seals items)) xs r'),
  status_validity st = Valid <->
   status_validity (cd_consistency self) = Valid /\
   Forall (fun it => status_validity (cd_consistency it) = Valid) items /\ Forall (fun x => x = Ok tt) xs.
Proof. exact c45_valid. Qed.
Print Assumptions C45_valid.
Example C45_valid_case :
  fst (client_side_validate odd_resolver (ClientData [9] status_new) [ClientData [2; 4] (@status_new nat nat nat nat)] 0) = status_new /\
  resolves odd_resolver 0 [2; 4] [Ok tt; Ok tt] 2.
Proof. exact c45_valid_case. Qed.

Theorem C45_own_seals_ignored : forall Issue Fail Warn Info Seal Res (resolve : Res -> Seal -> result unit Issue * Res)
    (consistency : status Issue Fail Warn Info) seals seals' items r,
  client_side_validate resolve (ClientData seals consistency) items r =
  client_side_validate resolve (ClientData seals' consistency) items r.
Proof. exact c45_own_seals_ignored. Qed.
Print Assumptions C45_own_seals_ignored.

Theorem C46_order_refuted :
  (exists a b : status unit unit unit unit,
     validity_cmp (status_validity a) (status_validity b) = Lt /\
     status_validity (add_assign a b) = status_validity a) /\
  (exists a b : status unit unit unit unit,
     validity_cmp (status_validity a) (status_validity b) = Lt /\
     status_validity (add_assign a b) = status_validity b).
Proof. exact c46_order_refuted. Qed.
Print Assumptions C46_order_refuted.

Theorem C46_order : forall a b, validity_cmp a b =
  match a, b with
  | Invalid, Invalid | Valid, Valid | SealIssues, SealIssues => Eq
  | Invalid, _ | Valid, SealIssues => Lt
  | _, _ => Gt
  end.
Proof. exact c46_order. Qed.
Print Assumptions C46_order.
Example C46_order_case : validity_cmp Invalid Valid = Lt /\ validity_cmp Valid SealIssues = Lt /\ worse Valid Invalid = Invalid.
Proof. exact c46_order_case. Qed.

Theorem C47_verdict : forall Seal Msg Pub Cli Proof PubId PubErr CliErr
    (P : seal_protocol Seal Msg Pub Cli Proof PubId PubErr CliErr) pub cli seals msg r,
  verify_seals_closing P (witness_new pub cli) seals msg = r <-> closing_verdict P pub cli seals msg r.
Proof. exact c47_verdict. Qed.
Print Assumptions C47_verdict.
Example C47_verdict_case :
  verify_seals_closing list_protocol (witness_new ([1; 2; 3], m1) tt) [1; 3] m1 = Ok tt /\
  verify_seals_closing list_protocol (witness_new ([1; 2; 3], m1) tt) [1; 4; 5] m1 = Err (SeNotIncluded 4 [1; 2; 3]) /\
  verify_seals_closing list_protocol (witness_new ([1; 2; 3], m1) tt) [1; 3] m2 = Err (SePublished tt) /\
  verify_seals_closing list_protocol (witness_new ([1; 2; 3], m1) tt) [] m1 = Ok tt.
Proof. exact c47_verdict_case. Qed.

Theorem C47_one_seal : forall Seal Msg Pub Cli Proof PubId PubErr CliErr
    (P : seal_protocol Seal Msg Pub Cli Proof PubId PubErr CliErr) pub cli seal msg r,
  verify_seal_closing P (witness_new pub cli) seal msg = r <-> closing_verdict P pub cli [seal] msg r.
Proof. exact c47_one_seal. Qed.
Print Assumptions C47_one_seal.
Example C47_one_seal_case :
  verify_seal_closing list_protocol (witness_new ([1; 2; 3], m1) tt) 2 m1 = Ok tt /\
  verify_seal_closing list_protocol (witness_new ([1; 2; 3], m1) tt) 7 m1 = Err (SeNotIncluded 7 [1; 2; 3]).
Proof. exact c47_one_seal_case. Qed.

Theorem C48_one_message : forall Seal Msg Pub Cli Proof PubId PubErr CliErr
    (P : seal_protocol Seal Msg Pub Cli Proof PubId PubErr CliErr) pub cli seals seals' m m' u u'
  (one_proof : forall p q v w, sl_verify_commitment P pub p = Ok v -> sl_verify_commitment P pub q = Ok w -> p = q)
  (injective : forall x y p, sl_convolve P cli x = Ok p -> sl_convolve P cli y = Ok p -> x = y)
  (closed1 : verify_seals_closing P (witness_new pub cli) seals m = Ok u)
  (closed2 : verify_seals_closing P (witness_new pub cli) seals' m' = Ok u'),
  m = m'.
Proof. exact c48_one_message. Qed.
Print Assumptions C48_one_message.
Example C48_one_message_case :
  (forall pub p q v w, sl_verify_commitment list_protocol pub p = Ok v -> sl_verify_commitment list_protocol pub q = Ok w -> p = q) /\
  (forall cli x y p, sl_convolve list_protocol cli x = Ok p -> sl_convolve list_protocol cli y = Ok p -> x = y) /\
  verify_seals_closing list_protocol (witness_new ([1; 2; 3], m1) tt) [1; 3] m1 = Ok tt.
Proof. exact c48_one_message_case. Qed.

Theorem C48_no_witness : forall Seal Msg Pub PubId PubErr
    (P : seal_protocol Seal Msg Pub no_witness Msg PubId PubErr Empty_set) pub cli cli' seals seals' m m' u u'
  (client : sl_convolve P = no_witness_convolve)
  (one_proof : forall p q v w, sl_verify_commitment P pub p = Ok v -> sl_verify_commitment P pub q = Ok w -> p = q)
  (closed1 : verify_seals_closing P (witness_new pub cli) seals m = Ok u)
  (closed2 : verify_seals_closing P (witness_new pub cli') seals' m' = Ok u'),
  m = m'.
Proof. exact c48_no_witness. Qed.
Print Assumptions C48_no_witness.
Example C48_no_witness_case : sl_convolve list_protocol = no_witness_convolve /\
  verify_seals_closing list_protocol (witness_new ([1; 2; 3], m1) tt) [2] m1 = Ok tt.
Proof. exact c48_no_witness_case. Qed.

Theorem C48_merkle_proofs : forall (H : Hasher) Seal Pub Cli PubId PubErr CliErr
    (P : seal_protocol Seal bytes32 Pub Cli bytes32 PubId PubErr CliErr)
    md (proof_of : Cli -> merkle_proof) pid pub cli cli' seals seals' m m' u u'
  (client : forall w x c, sl_convolve P w x = Ok c -> convolve md (proof_of w) pid x = Ret (Ok c))
  (valid1 : valid_proof (proof_of cli)) (valid2 : valid_proof (proof_of cli'))
  (one_proof : forall p q v w, sl_verify_commitment P pub p = Ok v -> sl_verify_commitment P pub q = Ok w -> p = q)
  (closed1 : verify_seals_closing P (witness_new pub cli) seals m = Ok u)
  (closed2 : verify_seals_closing P (witness_new pub cli') seals' m' = Ok u'),
  m = m' \/ collision_in (proof_pre (proof_of cli) pid m ++ proof_pre (proof_of cli') pid m').
Proof. exact c48_merkle_proofs. Qed.
Print Assumptions C48_merkle_proofs.
Example C48_merkle_proofs_case :
  (forall w x c, sl_convolve mpc_protocol w x = Ok c -> @convolve toy Debug w p1 x = Ret (Ok c)) /\
  valid_proof pf1 /\ verify_seals_closing mpc_protocol (witness_new ([1; 2], c0) pf1) [1; 2] m1 = Ok tt /\
  verify_seals_closing mpc_protocol (witness_new ([1; 2], c0) pf1) [1; 2] m2 = Err (SePublished tt).
Proof. exact c48_merkle_proofs_case. Qed.

Theorem C47_set : forall Seal Msg Pub Cli Proof PubId PubErr CliErr
    (P : seal_protocol Seal Msg Pub Cli Proof PubId PubErr CliErr) pub cli seals seals' msg u
  (same : forall s, In s seals <-> In s seals'),
  verify_seals_closing P (witness_new pub cli) seals msg = Ok u <->
  verify_seals_closing P (witness_new pub cli) seals' msg = Ok u.
Proof. exact c47_set. Qed.
Print Assumptions C47_set.
Example C47_set_case : (forall s, In s [1; 3] <-> In s [3; 1; 3]) /\
  verify_seals_closing list_protocol (witness_new ([1; 2; 3], m1) tt) [3; 1; 3] m1 = Ok tt.
Proof. exact c47_set_case. Qed.

Theorem C47_split : forall Seal Msg Pub Cli Proof PubId PubErr CliErr
    (P : seal_protocol Seal Msg Pub Cli Proof PubId PubErr CliErr) pub cli seals seals' msg u,
  verify_seals_closing P (witness_new pub cli) (seals ++ seals') msg = Ok u <->
  verify_seals_closing P (witness_new pub cli) seals msg = Ok u /\
  verify_seals_closing P (witness_new pub cli) seals' msg = Ok u.
Proof. exact c47_split. Qed.
Print Assumptions C47_split.
Example C47_split_case : verify_seals_closing list_protocol (witness_new ([1; 2; 3], m1) tt) ([1] ++ [3]) m1 = Ok tt /\
  verify_seals_closing list_protocol (witness_new ([1; 2; 3], m1) tt) ([1] ++ [4]) m1 = Err (SeNotIncluded 4 [1; 2; 3]).
Proof. exact c47_split_case. Qed.

Theorem C48_merged : forall Seal Msg Pub PubId PubErr
    (P : seal_protocol Seal Msg Pub no_witness Msg PubId PubErr Empty_set) pub a b w seals msg
  (client : sl_convolve P = no_witness_convolve)
  (blind : forall s m p x y, sl_is_included P s m (p, x) = sl_is_included P s m (p, y))
  (merged : no_witness_merge a b = Ok w),
  no_witness_eq a w = true /\
  verify_seals_closing P (witness_new pub w) seals msg = verify_seals_closing P (witness_new pub b) seals msg.
Proof. exact c48_merged. Qed.
Print Assumptions C48_merged.
Example C48_merged_case : sl_convolve list_protocol = no_witness_convolve /\
  (forall s m p x y, sl_is_included list_protocol s m (p, x) = sl_is_included list_protocol s m (p, y)) /\
  no_witness_merge tt tt = Ok tt.
Proof. exact c48_merged_case. Qed.

Theorem C46_numbers : discriminant Invalid = 0%N /\ discriminant Valid = 1%N /\ discriminant SealIssues = 255%N /\
  forall a b, validity_cmp a b = N.compare (discriminant a) (discriminant b).
Proof. exact c46_numbers. Qed.
Print Assumptions C46_numbers.
Example C46_numbers_case : discriminant SealIssues = 255%N /\ validity_cmp Invalid SealIssues = Lt.
Proof. exact c46_numbers_case. Qed.
