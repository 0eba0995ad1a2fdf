(** Cases for the theorems of TheoremsCosts.v. *)
From Verif Require Import Base BaseFacts OrdMap Merkle MpcAtoms MpcTree MpcBlock SpecTree SpecBlock SpecValid Work Costs TheoremsMpc CasesMpc
  TheoremsWork CasesWork TheoremsCosts.
Local Open Scope nat_scope.

(** numbered leaves *)
Definition numbered (n : nat) : list bytes32 := map (fun i => b32_of_N (N.of_nat i)) (seq 0 n).
(** a block, and the same with a node too many *)
Definition even_block : merkle_block := MBlock Sha256t 1 0 [CommitmentLeaf p1 m1; ConcealedNode 1 p2] None.
Definition spare_block : merkle_block := MBlock Sha256t 1 0 [CommitmentLeaf p1 m1; ConcealedNode 1 p2; ConcealedNode 1 p3] None.
Definition hashes_of {A} (o : outcome (A * N)) : option N := match o with Ret (_, k) => Some k | Panic _ => None end.

Lemma c111_same_case :
  work_of (@counted_proof toy Debug b0 p1) = Some (Work 2 4 3 0) /\
  (exists r, @to_merkle_proof toy Debug b0 p1 = Ret (Ok r) /\ r = pf1) /\
  work_of (@counted_tree_proofs toy Debug t0) = Some (Work 6 13 10 4) /\
  (exists w, @counted_merge toy Debug b1 b3 = Ret (b13, Ok 4%N, (w, 2%N, 2%N)) /\ w_hashed w = 14%N) /\
  (exists c, @counted_merklize toy (numbered 5) = Ret (c, 5%N) /\ @merklize toy (numbered 5) = Ret c) /\
  @counted_proof toy Debug odd_block p1 = Ret (Err p1, Work 0 0 0 0).
Proof.
  split; [comp|]. split; [eexists; split; comp|]. split; [comp|]. split; [eexists; split; comp|].
  split; [eexists; split; comp|]. comp.
Qed.
Lemma c111_merge_any_case :
  (exists w, @counted_merge toy Debug b1 b3 = Ret (b13, Ok 4%N, (w, 2%N, 2%N))) /\
  length (mb_cross_section b1) = 3 /\ length (mb_cross_section b3) = 3 /\
  exists w, @counted_merge toy Debug b0 b0' = Ret (b0, Err (UnrelatedBlocks c0 c0'), (w, 0%N, 0%N)).
Proof. split; [eexists; comp|]. split; [reflexivity|]. split; [reflexivity|]. eexists. comp. Qed.
Lemma c111_merge_case :
  (exists w, @counted_merge toy Debug b1 b3 = Ret (b13, Ok 4%N, (w, 2%N, 2%N)) /\ w_hashed w = 14%N) /\
  wf_block b1 /\ wf_block b3 /\
  exists w, @counted_merge toy Release even_block spare_block = Ret (even_block, Ok 2%N, (w, 2%N, 0%N)) /\ w_hashed w = 9%N.
Proof. split; [eexists; split; comp|]. split; [exact b1_wf|]. split; [exact b3_wf|]. eexists. split; comp. Qed.
Lemma c111_rounds_case : block_tree b1 pt1 /\ block_tree b3 pt3 /\ @block_commit_id toy Debug b1 = Ret c0 /\
  @block_commit_id toy Debug b3 = Ret c0 /\
  (exists w, @counted_merge toy Debug b1 b3 = Ret (b13, Ok 4%N, (w, 2%N, 2%N))) /\
  exists w, @counted_merge toy Debug b0 b1 = Ret (b0, Ok 4%N, (w, 3%N, 1%N)).
Proof. split; [exact b1_tree|]. split; [exact b3_tree|]. split; [comp|]. split; [comp|]. split; eexists; comp. Qed.
Lemma b0_distinct : NoDup (known_protocol_ids b0).
Proof. change (known_protocol_ids b0) with [p1; p2; p3]. repeat constructor; cbn; intuition discriminate. Qed.
Lemma c111_proof_case : wf_block b0 /\ count_occ b32_eq_dec (known_protocol_ids b0) p1 = 1 /\
  exists pf, @counted_proof toy Debug b0 p1 = Ret (Ok pf, Work 2 4 3 0).
Proof.
  split; [exact b0_wf|]. split; [|eexists; comp].
  apply (proj1 (NoDup_count_occ' b32_eq_dec _) b0_distinct). left. reflexivity.
Qed.
Lemma c111_proofs_case : wf_block b0 /\ NoDup (known_protocol_ids b0) /\
  exists ps w, @counted_proofs toy Debug b0 (known_protocol_ids b0) = Ret (ps, w) /\ length ps = 3 /\ w_hashed w = 9%N.
Proof.
  split; [exact b0_wf|]. split.
  - exact b0_distinct.
  - eexists. eexists. split; [vm_compute; reflexivity|]. split; reflexivity.
Qed.
Lemma c111_tree_case : valid_source src0 /\ try_commit src0 None = Ret (Ok t0) /\
  exists ps w, @counted_tree_proofs toy Debug t0 = Ret (ps, w) /\ w_hashed w = 10%N.
Proof. split; [exact src0_valid|]. split; [comp|]. eexists. eexists. split; [vm_compute; reflexivity|]. reflexivity. Qed.
Lemma c111_merklize_case :
  map (fun n => hashes_of (@counted_merklize toy (numbered n))) [1; 2; 3; 4; 5; 6; 7; 8; 9] =
  map Some [0; 1; 3; 3; 5; 7; 7; 7; 9]%N.
Proof. comp. Qed.
Lemma c111_linear_case :
  hashes_of (@counted_merklize toy (numbered 16)) = Some 15%N /\ hashes_of (@counted_merklize toy (numbered 12)) = Some 15%N.
Proof. split; comp. Qed.
Lemma c111_sum_case :
  (exists ps, @counted_proofs toy Debug b0 [p1; p2; p3] = Ret (ps, Work 6 13 9 4)) /\
  map (fun p => work_of (@counted_proof toy Debug b0 p)) [p1; p2; p3] = [Some (Work 2 4 3 0); Some (Work 2 5 3 2); Some (Work 2 4 3 2)] /\
  (exists w, @counted_merge toy Debug b1 b3 = Ret (b13, Ok 4%N, (w, 2%N, 2%N))) /\
  (exists w, @counted_merge toy Debug b0 b0' = Ret (b0, Err (UnrelatedBlocks c0 c0'), (w, 0%N, 0%N))).
Proof. split; [eexists; comp|]. split; [comp|]. split; eexists; comp. Qed.
Lemma c111_refused_case : exists p, @counted_proof toy Debug b0 p = Ret (Err p, Work 0 0 3 0) /\ length (known_leaves (mb_cross_section b0)) = 3.
Proof. exists (b32_of_N 77). split; comp. Qed.
