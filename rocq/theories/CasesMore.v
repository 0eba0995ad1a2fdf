(** Concrete cases meeting the hypotheses of the theorems of TheoremsMore.v. *)
From Verif Require Import Base BaseFacts OrdMap Strict Digest Merkle MpcAtoms MpcTree MpcBlock Engine Schemes.
From Verif Require Import SpecHash SpecTree SpecMerkle SpecFull SpecValid SpecCommit SpecDerived SpecBlock.
From Verif Require Import TheoremsMpc TheoremsBlock TheoremsMore CasesMpc.
Local Open Scope nat_scope.

Lemma t0_valid : valid_tree t0.
Proof.
  split; [cbn; lia|]. do 6 (split; [comp|]). repeat constructor.
Qed.
Lemma t0'_valid : valid_tree t0'.
Proof.
  split; [cbn; lia|]. do 6 (split; [comp|]). repeat constructor.
Qed.

(** ** C51 *)
(** [b1] followed by a leaf which is not in the tree *)
Definition b1g : merkle_block := MBlock Sha256t 2 0 (mb_cross_section b1 ++ [CommitmentLeaf p5 m2]) None.
Lemma b1g_valid : valid_block b1g.
Proof. split; [cbn; lia|split; [comp|split; [cbn; lia|split; [|exact I]]]]. cbn. repeat constructor; cbn; lia. Qed.
Lemma c51_prefix_case : valid_block b1 /\ @block_commit_id toy Debug b1 = Ret c0 /\
  valid_block b1g /\ @block_commit_id toy Release b1g = Ret c0 /\
  mb_cross_section b1g = flatten 0 pt1 ++ [CommitmentLeaf p5 m2].
Proof. split; [exact b1_valid|split; [comp|split; [exact b1g_valid|split; comp]]]. Qed.
Lemma c51_vouches_case : valid_block b1g /\ valid_source src0 /\ try_commit src0 None = Ret (Ok t0) /\
  @block_commit_id toy Release b1g = Ret c0 /\ @tree_commit_id toy Debug t0 = Ret c0 /\
  pleaves_at 2 0 0 pt1 = [(1%N, (p1, m1))] /\ ~ In p5 (map fst (ms_messages src0)).
Proof.
  split; [exact b1g_valid|split; [exact src0_valid|split; [comp|split; [comp|split; [comp|split; [comp|]]]]]].
  intros [X|[X|[X|[]]]]; discriminate X.
Qed.

(** ** C52 *)
Ltac occ := repeat first [rewrite count_occ_cons_eq by reflexivity | rewrite count_occ_cons_neq by discriminate]; reflexivity.
Lemma b0_known : known_protocol_ids b0 = [p1; p2; p3].
Proof. comp. Qed.
Lemma c52_once_case : block_tree b0 pt0 /\ In (1%N, (p1, m1)) (pleaves_at (mb_depth b0) 0 0 pt0) /\
  count_occ b32_eq_dec (known_protocol_ids b0) p1 = 1 /\ s_pos p1 (mb_cofactor b0) (mb_depth b0) = 1%N /\
  @to_merkle_proof toy Debug b0 p1 = Ret (Ok pf1).
Proof. split; [exact b0_tree|split; [cbn; auto|split; [rewrite b0_known; occ|split; comp]]]. Qed.
Definition bdup : merkle_block := MBlock Sha256t 1 0 [CommitmentLeaf p1 m1; CommitmentLeaf p1 m2] None.
Lemma c52_several_case : block_tree bdup (PBr (PLeaf p1 m1) (PLeaf p1 m2)) /\
  count_occ b32_eq_dec (known_protocol_ids bdup) p1 = 2 /\
  @to_merkle_proof toy Release bdup p1 = Ret (Ok (MProof Sha256t 1 0 [])).
Proof. split; [split; [cbn; lia|split; [comp|split; [comp|cbn; lia]]]|split; [|comp]].
  change (known_protocol_ids bdup) with [p1; p1]. occ.
Qed.

(** ** C53, C54 *)
Lemma c53_commit_case : valid_tree t0 /\ @tree_commit_id toy Debug t0 = Ret c0.
Proof. split; [exact t0_valid|comp]. Qed.
(** A decodable tree with an unreachable slot *)
Definition t0x : merkle_tree :=
  MTree Sha256t 2 7 0 [] [(1%N, (p1, m1)); (2%N, (p2, m2)); (3%N, (p3, m1)); (4%N, (p5, m1))].
Lemma c53_determined_case : valid_tree t0 /\ valid_tree t0x /\ mt_map t0 <> mt_map t0x /\
  (forall pos, (pos < 2 ^ N.of_nat (mt_depth t0))%N -> om_get N.ltb pos (mt_map t0) = om_get N.ltb pos (mt_map t0x)) /\
  @tree_commit_id toy Release t0x = Ret c0.
Proof.
  split; [exact t0_valid|]. split; [split; [cbn; lia|]; do 6 (split; [comp|]); repeat constructor|].
  split; [discriminate|]. split; [|comp]. intros pos L. change (2 ^ N.of_nat (mt_depth t0))%N with 4%N in L.
  destruct (N.eq_dec pos 0) as [->|N0]; [reflexivity|]. destruct (N.eq_dec pos 1) as [->|N1]; [reflexivity|].
  destruct (N.eq_dec pos 2) as [->|N2]; [reflexivity|]. destruct (N.eq_dec pos 3) as [->|N3]; [reflexivity|]. lia.
Qed.
Lemma c53_binding_case : valid_tree t0 /\ valid_tree t0' /\
  @tree_commit_id flat Debug t0 = Ret cflat /\ @tree_commit_id flat Debug t0' = Ret cflat /\
  om_get N.ltb 1%N (mt_map t0) <> om_get N.ltb 1%N (mt_map t0') /\ @tree_commit_id toy Debug t0 <> @tree_commit_id toy Debug t0'.
Proof.
  split; [exact t0_valid|split; [exact t0'_valid|split; [comp|split; [comp|]]]].
  split; [vm_compute; discriminate|vm_compute; discriminate].
Qed.
Lemma c54_entropy_case : let t e := MTree Sha256t 3 e 0 [] [] in
  try_commit (multi_source_with_static_entropy 5) None = Ret (Ok (t 5%N)) /\
  try_commit (multi_source_with_static_entropy 6) (Some 5%N) = Ret (Ok (t 6%N)) /\
  @tree_commit_id flat Debug (t 5%N) = Ret cflat /\ @tree_commit_id flat Debug (t 6%N) = Ret cflat /\
  @tree_commit_id toy Debug (t 5%N) <> @tree_commit_id toy Debug (t 6%N).
Proof. cbv zeta. do 4 (split; [comp|]). vm_compute. discriminate. Qed.
Lemma c54_shape_case : valid_source src0 /\ try_commit src0 None = Ret (Ok t0) /\
  valid_source srcr /\ try_commit srcr (Some 9%N) = Ret (Ok (MTree Sha256t 2 9 0 (mt_messages t0) (mt_map t0))).
Proof. split; [exact src0_valid|split; [comp|split; [exact srcr_valid|comp]]]. Qed.

(** ** C55 *)
Definition src10 : multi_source :=
  MultiSource Sha256t 0 (map (fun i => (b32_fill i, m1)) [x00; x01; x02; x03; x04; x05; x06; x07; x08; x09]) None.
Lemma c55_few_case : valid_source src10 /\ length (ms_messages src10) = 10 /\ ms_messages src10 <> [] /\
  exists t, try_commit src10 (Some 7%N) = Ret (Ok t) /\ mt_depth t = 4 /\ mt_cofactor t = 0%N.
Proof.
  split; [unfold valid_source; split; [cbn; lia|split; [vm_compute; discriminate|split; [comp|exact I]]]|].
  split; [comp|split; [discriminate|]]. eexists. split; [vm_compute; reflexivity|split; comp].
Qed.
Lemma c55_single_case : let src := MultiSource Sha256t 31 [(p1, m1)] (Some 7%N) in
  valid_source src /\ try_commit src None = Ret (Ok (MTree Sha256t 31 7 0 [(p1, m1)] [(16843009%N, (p1, m1))])).
Proof. cbv zeta. split; [vsrc|comp]. Qed.

(** ** C56 *)
Lemma c56_passes_case : block_tree b1 pt1 /\ mb_depth b1 = 2 /\
  exists xs, @conceal_loop toy 3 Debug 2 (mb_cross_section b1) 0 = Ret (xs, 0%N).
Proof. split; [exact b1_tree|split; [comp|]]. eexists. vm_compute. reflexivity. Qed.
Lemma c56_conceal_case : wf_block b0 /\ (forall p, In p [p1] -> In p (known_protocol_ids b0)) /\
  @conceal_except toy Debug b0 [p1] = Ret (b1, Ok 3%N).
Proof. split; [exact b0_wf|split; [intros p [<-|[]]; cbn; auto|comp]]. Qed.
Lemma c56_sharp_case : exists b, wf_block b /\ mb_depth b = 2 /\
  @conceal_loop toy 2 Debug 2 (mb_cross_section b) 0 = Panic PFuel /\
  exists xs n, @conceal_loop toy 3 Debug 2 (mb_cross_section b) 0 = Ret (xs, n).
Proof.
  exists (MBlock Sha256t 2 0 [ConcealedNode 1 p1; ConcealedNode 2 p2; ConcealedNode 2 p3] None).
  split; [exists (PBr (PConc p1) (PBr (PConc p2) (PConc p3))); split; [cbn; lia|split; [comp|split; [comp|cbn; lia]]]|].
  split; [comp|split; [comp|]]. eexists. eexists. vm_compute. reflexivity.
Qed.

(** ** C57, C58 *)
Lemma c57_blocks_case : @conceal_except toy Debug b0 [p1] = Ret (b1, Ok 3%N) /\ @conceal_other toy Debug b0 p1 = Ret (b1, Ok tt) /\
  @block_commit_id toy Debug b1 = Ret c0 /\ @merge_reveal toy Debug b1 b3 = Ret (b13, Ok 4%N) /\
  @merge_reveal_path toy Debug b3 pf1 p1 m1 = Ret (b13, Ok 4%N) /\ @to_merkle_proof toy Debug b12 p1 = Ret (Ok pf1) /\
  mb_factored_width Debug b1 = Ret 4%N /\ @mb_matches toy Debug b1 b3 = Ret true.
Proof. do 7 (split; [comp|]). comp. Qed.
Lemma c57_trees_case : @tree_commit_id toy Debug t0 = Ret c0 /\ @mt_matches toy Debug t0 t0' = Ret false /\
  mt_factored_width Debug t1 = Ret 3%N /\ mp_factored_width Debug pf1 = Ret 4%N /\
  @convolve toy Debug pf1 p1 m1 = Ret (Ok c0) /\
  exists ps, @into_proofs toy Debug t0 = Ret ps /\ map fst ps = [p1; p2; p3].
Proof. do 5 (split; [comp|]). eexists. split; [vm_compute; reflexivity|comp]. Qed.
Lemma c57_wellformed_case : wf_block b0 /\ count_occ b32_eq_dec (known_protocol_ids b0) p1 = 1 /\
  count_occ b32_eq_dec (known_protocol_ids b0) p5 = 0 /\ @to_merkle_proof toy Release b0 p5 = Ret (Err p5).
Proof. rewrite b0_known. split; [exact b0_wf|split; [occ|split; [occ|comp]]]. Qed.
Lemma c58_absorb_case : wf_block b0 /\ @conceal_except toy Debug b0 [p1] = Ret (b1, Ok 3%N) /\
  mb_entropy b0 = Some 7%N /\ @merge_reveal toy Debug b0 b1 = Ret (b0, Ok 4%N).
Proof. split; [exact b0_wf|split; [comp|split; comp]]. Qed.
Lemma c58_union_case : wf_block b0 /\ @conceal_except toy Debug b0 [p1] = Ret (b1, Ok 3%N) /\
  (exists n, @conceal_except toy Debug b0 [p3] = Ret (b3, Ok n)) /\
  @merge_reveal toy Debug b1 b3 = Ret (b13, Ok 4%N) /\ exists n, @conceal_except toy Debug b0 [p1; p3] = Ret (b13, Ok n).
Proof.
  split; [exact b0_wf|split; [comp|split; [|split; [comp|]]]]; eexists; vm_compute; reflexivity.
Qed.
