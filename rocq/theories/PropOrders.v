(** Derived orders: C89 *)
From Coq Require Import Permutation Sorting.Sorted.
From Verif Require Import Base BaseFacts OrdMap Strict Digest Merkle MpcAtoms MpcTree MpcBlock.
From Verif Require Import Engine EngineIo Schemes Seals Api Vesper Sha256 Ripemd Dumb Text Loops Orders Suites MpcTests Serde Steps Work Costs.
From Verif Require Import SpecHash SpecTree SpecMerkle SpecFull SpecValid SpecCommit SpecDerived SpecBlock.
From Verif Require Import SpecBuoy SpecStrings SpecCodec SpecLayout SpecEngine SpecMisc SpecSha SpecDerive SpecLocal SpecSession SpecRipemd SpecEnd Stl SpecStl SpecQuery SpecCount SpecText SpecOrders SpecFind SpecForm SpecGame SpecHideGame SpecViewGame SpecBlockGame SpecSuites SpecExtend SpecCompress SpecTests SpecSerde SpecTalk SpecMany SpecDepth SpecTarget SpecIdGame SpecLate SpecTransfer SpecNest SpecScript SpecSalt SpecOpen SpecChoice SpecPick SpecOffer SpecPlay SpecSeek SpecShare SpecSettled SpecResting SpecDraw SpecFuse SpecFeed.
From Verif Require Import TheoremsMpc TheoremsBlock TheoremsMerkle TheoremsMisc TheoremsMore TheoremsExt TheoremsAdv TheoremsLocal TheoremsSession TheoremsHash TheoremsHide TheoremsEnd TheoremsStl TheoremsQuery TheoremsCount TheoremsText TheoremsFrame TheoremsLoops TheoremsTight TheoremsOrders TheoremsFind TheoremsForm TheoremsGame TheoremsHideGame TheoremsViewGame TheoremsBlockGame TheoremsSuites TheoremsExtend TheoremsCompress TheoremsTests TheoremsSerde TheoremsTalk TheoremsMany TheoremsDepth TheoremsWork TheoremsTarget TheoremsAttack TheoremsIdGame TheoremsLate TheoremsTransfer TheoremsNest TheoremsCosts TheoremsScript TheoremsSalt TheoremsOpen TheoremsChoice TheoremsPick TheoremsOffer TheoremsPlay TheoremsSeek TheoremsShare TheoremsSettled TheoremsResting TheoremsDraw TheoremsFuse TheoremsFeed.
From Verif Require Import CasesMpc CasesMisc CasesMore CasesExt CasesAdv CasesLocal CasesSession CasesHash CasesHide CasesEnd CasesStl CasesQuery CasesCount CasesText CasesFrame CasesLoops CasesTight CasesOrders CasesFind CasesForm CasesGame CasesHideGame CasesViewGame CasesBlockGame CasesSuites CasesExtend CasesCompress CasesTests CasesSerde CasesTalk CasesMany CasesDepth CasesWork CasesTarget CasesAttack CasesIdGame CasesLate CasesTransfer CasesNest CasesCosts CasesScript CasesSalt CasesOpen CasesChoice CasesPick CasesOffer CasesPlay CasesSeek CasesShare CasesSettled CasesResting CasesDraw CasesFuse CasesFeed.
Local Open Scope nat_scope.

Theorem C89_linear : linear_order id_cmp /\ linear_order reserved_cmp /\ linear_order method_cmp /\ linear_order proof_cmp /\
  linear_order source_cmp /\ linear_order commit_error_cmp.
Proof. exact c89_linear. Qed.
Print Assumptions C89_linear.
Example C89_linear_case : id_cmp p1 p2 = Lt /\ id_cmp p2 p1 = Gt /\ id_cmp p1 p1 = Eq /\
  proof_cmp (MProof Sha256t 1 0 [p1]) (MProof Sha256t 1 0 [p1; p1]) = Lt /\
  reserved_cmp [x00; x01] [x00; x02] = Lt /\ method_cmp Sha256t Sha256t = Eq.
Proof. exact c89_linear_case. Qed.

Theorem C89_ids : forall a b : bytes32, id_cmp a b = N.compare (be_number a) (be_number b) /\
  (b32_ltb a b = true <-> id_cmp a b = Lt) /\ (b32_eqb a b = true <-> id_cmp a b = Eq).
Proof. exact c89_ids. Qed.
Print Assumptions C89_ids.
Example C89_ids_case : id_cmp (b32_of_N 256) (b32_of_N 1) = Lt /\ be_number (b32_of_N 0x0100 ) = (2 ^ 240)%N /\
  be_number (b32_of_N 1) = (2 ^ 248)%N.
Proof. exact c89_ids_case. Qed.

Theorem C89_proofs : forall a b, proof_cmp a b = Lt <-> proof_less a b.
Proof. exact c89_proofs. Qed.
Print Assumptions C89_proofs.
Example C89_proofs_case : proof_less (MProof Sha256t 3 9 []) (MProof Sha256t 5 0 [p1]) /\
  proof_cmp (MProof Sha256t 5 0 [p1]) (MProof Sha256t 3 9 []) = Gt /\
  proof_less (MProof Sha256t 3 9 [p1; p1]) (MProof Sha256t 3 9 [p1; p2]).
Proof. exact c89_proofs_case. Qed.

Theorem C89_sources : forall a b, source_cmp a b = Lt <-> source_less a b.
Proof. exact c89_sources. Qed.
Print Assumptions C89_sources.
Example C89_sources_case : source_less (MultiSource Sha256t 3 [(p1, m1)] None) (MultiSource Sha256t 3 [(p1, m1)] (Some 0%N)) /\
  source_cmp (MultiSource Sha256t 3 [(p1, m1)] (Some 7%N)) (MultiSource Sha256t 3 [(p1, m1); (p2, m2)] None) = Lt /\
  source_cmp (MultiSource Sha256t 4 [] None) (MultiSource Sha256t 3 [(p1, m1)] None) = Gt.
Proof. exact c89_sources_case. Qed.

Theorem C89_errors : forall n m,
  commit_error_cmp Empty (TooManyMessages n) = Lt /\ commit_error_cmp (TooManyMessages n) (CantFitInMaxSlots m) = Lt /\
  (commit_error_cmp (TooManyMessages n) (TooManyMessages m) = Lt <-> n < m) /\
  (commit_error_cmp (CantFitInMaxSlots n) (CantFitInMaxSlots m) = Lt <-> n < m).
Proof. exact c89_errors. Qed.
Print Assumptions C89_errors.
Example C89_errors_case : commit_error_cmp (CantFitInMaxSlots 1) (TooManyMessages 5) = Gt /\
  commit_error_cmp (CantFitInMaxSlots 1) (CantFitInMaxSlots 2) = Lt.
Proof. exact c89_errors_case. Qed.

Theorem C89_maps : forall m : message_map,
  om_sorted b32_ltb m = true <-> StronglySorted (fun a b => id_less (fst a) (fst b)) m.
Proof. exact c89_maps. Qed.
Print Assumptions C89_maps.
Example C89_maps_case : om_sorted b32_ltb [(p1, m1); (p2, m2)] = true /\ om_sorted b32_ltb [(p2, m2); (p1, m1)] = false.
Proof. exact c89_maps_case. Qed.

Theorem C89_inserted : forall l (m : message_map), m = om_of_list b32_ltb l <->
  StronglySorted (fun a b => id_less (fst a) (fst b)) m /\ (forall k v, In (k, v) m <-> last_entry l k v).
Proof. exact c89_inserted. Qed.
Print Assumptions C89_inserted.
Example C89_inserted_case : om_of_list b32_ltb [(p2, m1); (p1, m1); (p2, m2)] = [(p1, m1); (p2, m2)] /\
  last_entry [(p2, m1); (p1, m1); (p2, m2)] p2 m2.
Proof. exact c89_inserted_case. Qed.

Theorem C89_order_free : forall (H : Hasher) method depth entropy rng l l'
  (same : Permutation l l') (distinct : NoDup (map fst l)),
  try_commit (MultiSource method depth (om_of_list b32_ltb l) entropy) rng =
  try_commit (MultiSource method depth (om_of_list b32_ltb l') entropy) rng.
Proof. exact c89_order_free. Qed.
Print Assumptions C89_order_free.
Example C89_order_free_case : Permutation [(p2, m2); (p1, m1)] [(p1, m1); (p2, m2)] /\ NoDup (map fst [(p2, m2); (p1, m1)]) /\
  exists t, try_commit (MultiSource Sha256t 3 (om_of_list b32_ltb [(p2, m2); (p1, m1)]) (Some 7%N)) None = Ret (Ok t).
Proof. exact c89_order_free_case. Qed.

Theorem C89_positions_refuted : exists a b depth, depth <= 31 /\ id_less a b /\
  (protocol_id_pos b 0 depth < protocol_id_pos a 0 depth)%N.
Proof. exact c89_positions_refuted. Qed.
Print Assumptions C89_positions_refuted.

Theorem C89_encodings_refuted : exists a b, valid_proof a /\ valid_proof b /\ proof_less a b /\
  lex_less (fun x y => Byte.to_N x < Byte.to_N y)%N (enc c_merkle_proof b) (enc c_merkle_proof a).
Proof. exact c89_encodings_refuted. Qed.
Print Assumptions C89_encodings_refuted.
