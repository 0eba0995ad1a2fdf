(** Concrete cases meeting the hypotheses of the theorems of TheoremsMpc.v, TheoremsBlock.v and
    TheoremsMerkle.v. Two hash functions: [toy] (a 64-bit rolling sum) and
    [flat] (constant, so that everything collides). *)
From Verif Require Import Base BaseFacts OrdMap Strict Digest Merkle MpcAtoms MpcTree MpcBlock Engine Schemes Sha256.
From Verif Require Import SpecHash SpecTree SpecMerkle SpecFull SpecValid SpecCommit SpecDerived SpecBlock SpecBuoy SpecStrings.
From Verif Require Import TheoremsMpc TheoremsBlock TheoremsMerkle.
Local Open Scope nat_scope.

Definition flat : Hasher := fun _ => b32_fill x00.
Definition p5 := b32_fill x05.
Definition or_else {A} (d : A) (o : outcome A) : A := match o with Ret a => a | Panic _ => d end.

(** Three messages in a tree of depth 2: positions 1, 2 and 3; position 0 is filled with entropy. *)
Definition src0 : multi_source := MultiSource Sha256t 2 [(p1, m1); (p2, m2); (p3, m1)] (Some 7%N).
Definition t0 : merkle_tree :=
  MTree Sha256t 2 7 0 [(p1, m1); (p2, m2); (p3, m1)] [(1%N, (p1, m1)); (2%N, (p2, m2)); (3%N, (p3, m1))].
(** The same with another message for [p1] *)
Definition src0' : multi_source := MultiSource Sha256t 2 [(p1, m2); (p2, m2); (p3, m1)] (Some 8%N).
Definition t0' : merkle_tree :=
  MTree Sha256t 2 8 0 [(p1, m2); (p2, m2); (p3, m1)] [(1%N, (p1, m2)); (2%N, (p2, m2)); (3%N, (p3, m1))].
(** The same, entropy taken from the random generator *)
Definition srcr : multi_source := MultiSource Sha256t 2 [(p1, m1); (p2, m2); (p3, m1)] None.
(** [p1] and [p5] collide at depth 1 and at depth 2 with cofactor 0. *)
Definition src1 : multi_source := MultiSource Sha256t 1 [(p1, m1); (p5, m2)] (Some 7%N).
Definition t1 : merkle_tree :=
  MTree Sha256t 2 7 1 [(p1, m1); (p5, m2)] [(1%N, (p5, m2)); (2%N, (p1, m1))].
(** Two protocols colliding for both cofactors tried at depth 31 *)
Definition pbig : bytes32 := b32_of_N (2 ^ 31 * (2 ^ 31 - 1)).
Definition src31 : multi_source := MultiSource Sha256t 31 [(b32_fill x00, m1); (pbig, m2)] (Some 7%N).

Ltac comp := vm_compute; reflexivity.
Ltac vsrc := unfold valid_source; split; [cbn; lia|split; [vm_compute; discriminate|split; comp]].
Lemma src0_valid : valid_source src0. Proof. vsrc. Qed.
Lemma src0'_valid : valid_source src0'. Proof. vsrc. Qed.
Lemma src1_valid : valid_source src1. Proof. vsrc. Qed.
Lemma src31_valid : valid_source src31. Proof. vsrc. Qed.
Lemma srcr_valid : valid_source srcr.
Proof. unfold valid_source; split; [cbn; lia|split; [vm_compute; discriminate|split; [comp|exact I]]]. Qed.

(** Blocks of [t0] with the toy hash: everything, [p1] and [p2], only [p1], only [p3]. *)
Definition b0 : merkle_block := Eval vm_compute in @block_of_tree toy t0.
Definition b12 : merkle_block := Eval vm_compute in fst (or_else (b0, Err p1) (@conceal_except toy Debug b0 [p1; p2])).
Definition b1 : merkle_block := Eval vm_compute in fst (or_else (b0, Err p1) (@conceal_except toy Debug b0 [p1])).
Definition b3 : merkle_block := Eval vm_compute in fst (or_else (b0, Err p1) (@conceal_except toy Debug b0 [p3])).
Definition b0' : merkle_block := Eval vm_compute in @block_of_tree toy t0'.
Definition pf1 : merkle_proof := Eval vm_compute in
  match @to_merkle_proof toy Debug b0 p1 with Ret (Ok p) => p | _ => MProof Sha256t 0 0 [] end.
Definition c0 : bytes32 := Eval vm_compute in or_else p1 (@tree_commit_id toy Debug t0).
Definition c0' : bytes32 := Eval vm_compute in or_else p1 (@tree_commit_id toy Debug t0').
Definition cflat : bytes32 := b32_fill x00.
(** The tree behind [b0] and the one behind [b1] *)
Definition e0 : bytes32 := Eval vm_compute in @leaf_commit_id toy (Entropy 7 0).
Definition pt0 : ptree := PBr (PBr (PConc e0) (PLeaf p1 m1)) (PBr (PLeaf p2 m2) (PLeaf p3 m1)).
Definition h23 : bytes32 := Eval vm_compute in @phash toy 4 1 (PBr (PLeaf p2 m2) (PLeaf p3 m1)).
Definition h01 : bytes32 := Eval vm_compute in @phash toy 4 1 (PBr (PConc e0) (PLeaf p1 m1)).
Definition h2 : bytes32 := Eval vm_compute in @phash toy 4 2 (PLeaf p2 m2).
Definition pt1 : ptree := PBr (PBr (PConc e0) (PLeaf p1 m1)) (PConc h23).
Definition pt3 : ptree := PBr (PConc h01) (PBr (PConc h2) (PLeaf p3 m1)).

Lemma b0_tree : block_tree b0 pt0.
Proof. split; [cbn; lia|split; [comp|split; [comp|cbn; lia]]]. Qed.
Lemma b1_tree : block_tree b1 pt1.
Proof. split; [cbn; lia|split; [comp|split; [comp|cbn; lia]]]. Qed.
Lemma b3_tree : block_tree b3 pt3.
Proof. split; [cbn; lia|split; [comp|split; [comp|cbn; lia]]]. Qed.
Lemma b0_wf : wf_block b0. Proof. exists pt0. exact b0_tree. Qed.
Lemma b1_wf : wf_block b1. Proof. exists pt1. exact b1_tree. Qed.
Lemma b3_wf : wf_block b3. Proof. exists pt3. exact b3_tree. Qed.
Lemma b1_valid : valid_block b1.
Proof. split; [cbn; lia|split; [comp|split; [cbn; lia|split; [|exact I]]]]. cbn. repeat constructor; cbn; lia. Qed.
Lemma b3_valid : valid_block b3.
Proof. split; [cbn; lia|split; [comp|split; [cbn; lia|split; [|exact I]]]]. cbn. repeat constructor; cbn; lia. Qed.
Lemma b0_derived : @derived toy Debug t0 b0.
Proof. exact (@dv_tree toy Debug t0). Qed.
Lemma b12_derived : @derived toy Debug t0 b12.
Proof.
  refine (@dv_conceal toy Debug t0 b0 [p1; p2] b12 (Ok _) b0_derived _). vm_compute. reflexivity.
Qed.
Lemma b1_derived : @derived toy Debug t0 b1.
Proof. refine (@dv_conceal toy Debug t0 b0 [p1] b1 (Ok _) b0_derived _). vm_compute. reflexivity. Qed.
Lemma b3_derived : @derived toy Debug t0 b3.
Proof. refine (@dv_conceal toy Debug t0 b0 [p3] b3 (Ok _) b0_derived _). vm_compute. reflexivity. Qed.

(** ** C01-C07 *)
Lemma c01_one_message_case :
  valid_proof pf1 /\ m1 <> m2 /\
  @convolve flat Debug pf1 p1 m1 = Ret (Ok cflat) /\ @convolve flat Release pf1 p1 m2 = Ret (Ok cflat) /\
  @convolve toy Debug pf1 p1 m1 = Ret (Ok c0) /\ @convolve toy Debug pf1 p1 m2 <> Ret (Ok c0).
Proof.
  split; [split; [comp|split; [comp|cbn; lia]]|]. split; [discriminate|].
  split; [comp|split; [comp|split; [comp|vm_compute; discriminate]]].
Qed.
Lemma c02_every_message_has_proof_case :
  valid_source src0 /\ try_commit src0 None = Ret (Ok t0) /\ In (p1, m1) (ms_messages src0) /\
  @to_merkle_proof toy Debug (@block_of_tree toy t0) p1 = Ret (Ok pf1) /\ mp_path pf1 = [h23; e0] /\ mp_pos pf1 = 1%N.
Proof. split; [exact src0_valid|split; [comp|split; [cbn; auto|split; [comp|split; comp]]]]. Qed.
Lemma c03_convolve_total_case :
  length (mp_path pf1) = 2 /\ @convolve toy Debug pf1 p1 m1 = Ret (Ok c0) /\
  @convolve toy Debug pf1 p2 m1 = Ret (Err (InvalidProof p2 2 1 4)).
Proof. split; [comp|split; comp]. Qed.
Lemma c04_placement_case :
  valid_source src0 /\ try_commit src0 None = Ret (Ok t0) /\
  valid_source src1 /\ try_commit src1 None = Ret (Ok t1) /\
  valid_source srcr /\ try_commit srcr (Some 7%N) = Ret (Ok t0).
Proof.
  split; [exact src0_valid|split; [comp|split; [exact src1_valid|split; [comp|split; [exact srcr_valid|comp]]]]].
Qed.
Lemma c05_first_fit_case :
  try_commit (MultiSource Sha256t 0 [] (Some 7%N)) None = Ret (Err Empty) /\
  valid_source src31 /\ try_commit src31 None = Ret (Err (CantFitInMaxSlots 2)) /\
  valid_source src1 /\ try_commit src1 None = Ret (Ok t1) /\ mt_depth t1 = 2 /\ mt_cofactor t1 = 1%N.
Proof. split; [comp|split; [exact src31_valid|split; [comp|split; [exact src1_valid|split; [comp|split; comp]]]]]. Qed.
Lemma c06_verify_static_case :
  valid_source src0 /\ ms_static_entropy src0 <> None /\ try_commit src0 None = Ret (Ok t0) /\
  tv_verify (@tv_merkle_tree toy (Some 3%N)) t0 src0 = Ret (Ok tt) /\
  tv_verify (@tv_merkle_tree toy None) t1 src0 = Ret (Err InvalidCommitment) /\
  tv_verify (@tv_merkle_tree toy None) t1 src31 = Ret (Err InvalidMessage).
Proof. split; [exact src0_valid|split; [discriminate|split; [comp|split; [comp|split; comp]]]]. Qed.
Lemma c06_verify_rng_case :
  valid_source srcr /\ ms_static_entropy srcr = None /\ try_commit srcr (Some 7%N) = Ret (Ok t0) /\
  tv_verify (@tv_merkle_tree toy (Some 7%N)) t0 srcr = Ret (Ok tt) /\
  tv_verify (@tv_merkle_tree toy (Some 8%N)) t0 srcr = Ret (Err InvalidCommitment).
Proof. split; [exact srcr_valid|split; [reflexivity|split; [comp|split; comp]]]. Qed.
Lemma c07_one_commitment_case :
  valid_source src0 /\ try_commit src0 None = Ret (Ok t0) /\
  @commit_id toy merkle_tree Debug (@ce_tree toy) t0 = Ret c0.
Proof. split; [exact src0_valid|split; comp]. Qed.

(** ** C27-C32 *)
Lemma c27_tree_binding_case :
  valid_source src0 /\ valid_source src0' /\ try_commit src0 None = Ret (Ok t0) /\ try_commit src0' None = Ret (Ok t0') /\
  mt_messages t0 <> mt_messages t0' /\
  @tree_commit_id flat Debug t0 = Ret cflat /\ @tree_commit_id flat Debug t0' = Ret cflat /\
  @tree_commit_id toy Debug t0 <> @tree_commit_id toy Debug t0'.
Proof.
  split; [exact src0_valid|split; [exact src0'_valid|split; [comp|split; [comp|split; [discriminate|]]]]].
  split; [comp|split; [comp|vm_compute; discriminate]].
Qed.
Lemma c29_positions_case : protocol_id_pos p1 1 2 = 2%N /\ protocol_id_pos p5 1 2 = 1%N /\ protocol_id_pos p5 9 2 = 0%N.
Proof. split; [comp|split; comp]. Qed.
Lemma c30_widths_case :
  valid_source src1 /\ try_commit src1 None = Ret (Ok t1) /\ mt_factored_width Debug t1 = Ret 3%N /\
  @derived toy Debug t1 (@block_of_tree toy t1).
Proof. split; [exact src1_valid|split; [comp|split; [comp|constructor]]]. Qed.
Lemma c31_known_proofs_case :
  valid_source src0 /\ try_commit src0 None = Ret (Ok t0) /\ @derived toy Debug t0 b12 /\
  known_leaves (mb_cross_section b12) = [(p1, m1); (p2, m2)] /\
  exists pf2, @into_known_proofs toy Debug b12 = Ret [(p1, pf1); (p2, pf2)].
Proof.
  split; [exact src0_valid|split; [comp|split; [exact b12_derived|split; [comp|]]]]. eexists. vm_compute. reflexivity.
Qed.
Lemma c31_tree_proofs_case :
  valid_source src0 /\ try_commit src0 None = Ret (Ok t0) /\
  exists ps, @into_proofs toy Debug t0 = Ret ps /\ map fst ps = [p1; p2; p3].
Proof. split; [exact src0_valid|split; [comp|]]. eexists. split; [vm_compute; reflexivity|comp]. Qed.
Lemma c32_known_map_case :
  valid_source src0 /\ try_commit src0 None = Ret (Ok t0) /\ @derived toy Debug t0 b1 /\ @derived toy Debug t0 b3 /\
  to_known_message_map b1 = Ret [(p1, m1)] /\ to_known_message_map b3 = Ret [(p3, m1)] /\
  exists b n, @merge_reveal toy Debug b1 b3 = Ret (b, Ok n) /\ to_known_message_map b = Ret [(p1, m1); (p3, m1)].
Proof.
  split; [exact src0_valid|split; [comp|split; [exact b1_derived|split; [exact b3_derived|split; [comp|split; [comp|]]]]]].
  eexists. eexists. split; [vm_compute; reflexivity|comp].
Qed.

(** ** C08-C12 *)
Lemma c08_conceal_case :
  wf_block b0 /\ incl [p1; p2] (known_protocol_ids b0) /\
  @conceal_except toy Debug b0 [p1; p2] = Ret (b12, Ok 1%N) /\
  known_leaves (mb_cross_section b12) = [(p1, m1); (p2, m2)].
Proof.
  split; [exact b0_wf|split; [|split; comp]]. intros x [<-|[<-|[]]]; vm_compute; auto.
Qed.
Lemma c08_conceal_other_case :
  @conceal_other toy Debug b0 p1 = Ret (b1, Ok tt) /\ exists b, @conceal_other toy Debug b0 m1 = Ret (b, Err m1).
Proof. split; [comp|]. eexists. vm_compute. reflexivity. Qed.
Lemma c09_maximal_case : wf_block b0 /\ @conceal_except toy Debug b0 [p1] = Ret (b1, Ok 3%N) /\ pmaximal pt1 /\
  block_tree b1 pt1 /\ length (mb_cross_section b1) = 3.
Proof. split; [exact b0_wf|split; [comp|split; [cbn; auto|split; [exact b1_tree|comp]]]]. Qed.
Lemma c09_any_order_case : wf_block b0 /\ (forall p, In p [p1; p2] <-> In p [p2; p1; p2]) /\
  @conceal_except toy Debug b0 [p1; p2] = Ret (b12, Ok 1%N).
Proof. split; [exact b0_wf|split; [cbn; tauto|comp]]. Qed.
Lemma c09_two_steps_case : wf_block b0 /\ incl [p1] [p1; p2] /\
  @conceal_except toy Debug b0 [p1; p2] = Ret (b12, Ok 1%N) /\ @conceal_except toy Debug b12 [p1] = Ret (b1, Ok 2%N).
Proof. split; [exact b0_wf|split; [intros x [<-|[]]; cbn; auto|split; comp]]. Qed.
Lemma c09_canonical_case : valid_source src0 /\ try_commit src0 None = Ret (Ok t0) /\
  @derived toy Debug t0 b0 /\ @derived toy Debug t0 b12 /\ b0 <> b12 /\
  @conceal_except toy Debug b0 [p1] = Ret (b1, Ok 3%N) /\ @conceal_except toy Debug b12 [p1] = Ret (b1, Ok 2%N).
Proof.
  split; [exact src0_valid|split; [comp|split; [exact b0_derived|split; [exact b12_derived|split; [|split; comp]]]]].
  discriminate.
Qed.
Lemma c10_unknown_case : wf_block b0 /\ ~ In m1 (known_protocol_ids b0) /\ ~ In m2 (known_protocol_ids b0) /\
  exists b, @conceal_except toy Debug b0 [p1; m2; m1] = Ret (b, Err m1).
Proof.
  split; [exact b0_wf|]. split; [intros [X|[X|[X|[]]]]; discriminate X|]. split; [intros [X|[X|[X|[]]]]; discriminate X|].
  eexists. vm_compute. reflexivity.
Qed.
Lemma c10_exactly_case : wf_block b0 /\
  (exists b, @conceal_except toy Debug b0 [p1; m1] = Ret (b, Err m1)) /\
  (exists b n, @conceal_except toy Debug b0 [p1; p3] = Ret (b, Ok n)).
Proof. split; [exact b0_wf|split]. - eexists. vm_compute. reflexivity. - eexists. eexists. vm_compute. reflexivity. Qed.
Lemma c10_proof_unknown_case : wf_block b1 /\ ~ In p2 (known_protocol_ids b1) /\
  @to_merkle_proof toy Debug b1 p2 = Ret (Err p2) /\ @to_merkle_proof toy Debug b1 p1 = Ret (Ok pf1).
Proof. split; [exact b1_wf|split; [intros [X|[]]; discriminate X|split; comp]]. Qed.
Lemma c11_count_case : wf_block b0 /\ @conceal_except toy Debug b0 [p1] = Ret (b1, Ok 3%N) /\
  length (mb_cross_section b0) = 4 /\ length (mb_cross_section b1) = 3.
Proof. split; [exact b0_wf|split; [comp|split; comp]]. Qed.
Lemma c12_proof_block_case : valid_source src0 /\ try_commit src0 None = Ret (Ok t0) /\ @derived toy Debug t0 b12 /\
  In (p1, m1) (known_leaves (mb_cross_section b12)) /\
  @to_merkle_proof toy Debug b12 p1 = Ret (Ok pf1) /\ block_with pf1 p1 m1 = Ret (Ok b1).
Proof.
  split; [exact src0_valid|split; [comp|split; [exact b12_derived|split; [cbn; auto|split; comp]]]].
Qed.

(** ** C13-C16 *)
Definition b13 : merkle_block := Eval vm_compute in fst (or_else (b0, Err (UnrelatedBlocks p1 p1)) (@merge_reveal toy Debug b1 b3)).
Lemma c13_merge_case : block_tree b1 pt1 /\ block_tree b3 pt3 /\
  @block_commit_id toy Debug b1 = Ret c0 /\ @block_commit_id toy Debug b3 = Ret c0 /\
  @merge_reveal toy Debug b1 b3 = Ret (b13, Ok 4%N) /\
  mb_cross_section b13 = [ConcealedNode 2 e0; CommitmentLeaf p1 m1; ConcealedNode 2 h2; CommitmentLeaf p3 m1].
Proof. split; [exact b1_tree|split; [exact b3_tree|split; [comp|split; [comp|split; comp]]]]. Qed.
Lemma c14_unrelated_case : @block_commit_id toy Debug b0 = Ret c0 /\ @block_commit_id toy Debug b0' = Ret c0' /\ c0 <> c0'.
Proof. split; [comp|split; [comp|discriminate]]. Qed.
Lemma c14_commits_case : wf_block b1 /\ @block_commit_id toy Release b1 = Ret c0.
Proof. split; [exact b1_wf|comp]. Qed.
Lemma c14_bad_path_case : length (mp_path pf1) = 2 /\ s_pos p2 (mp_cofactor pf1) 2 <> mp_pos pf1 /\
  @merge_reveal_path toy Debug b3 pf1 p2 m1 = Ret (b3, Err (MInvalidProof (InvalidProof p2 2 1 4))).
Proof. split; [comp|split; [vm_compute; discriminate|comp]]. Qed.
Lemma c14_good_path_case : length (mp_path pf1) = 2 /\ s_pos p1 (mp_cofactor pf1) 2 = mp_pos pf1 /\
  @merge_reveal_path toy Debug b3 pf1 p1 m1 = Ret (b13, Ok 4%N).
Proof. split; [comp|split; comp]. Qed.
Lemma c15_semilattice_case : valid_source src0 /\ try_commit src0 None = Ret (Ok t0) /\
  @derived toy Debug t0 b1 /\ @derived toy Debug t0 b3 /\ @derived toy Debug t0 b12 /\ b1 <> b3 /\ b12 <> b1.
Proof.
  split; [exact src0_valid|split; [comp|split; [exact b1_derived|split; [exact b3_derived|split; [exact b12_derived|]]]]].
  split; discriminate.
Qed.
Lemma c15_collect_case : valid_source src0 /\ try_commit src0 None = Ret (Ok t0) /\
  (forall p, In p [p3; p1] -> In p (map fst (ms_messages src0))) /\ (forall p, In p [p3; p1] <-> In p [p1; p3; p1]) /\
  @collected toy Debug t0 [p3; p1] b13.
Proof.
  split; [exact src0_valid|split; [comp|split; [cbn; tauto|split; [cbn; tauto|]]]].
  eapply (@cl_more toy Debug t0 [p1] b1 p3 m1).
  - eapply (@cl_one toy Debug t0 p1 m1 pf1); [left; reflexivity|vm_compute; reflexivity|vm_compute; reflexivity].
  - right. right. left. reflexivity.
  - vm_compute. reflexivity.
  - vm_compute. reflexivity.
Qed.
Lemma c16_merge_any_case : valid_block b1 /\ valid_block b3 /\ @merge_reveal toy Debug b1 b3 = Ret (b13, Ok 4%N) /\
  @merge_reveal toy Release b1 b3 = Ret (b13, Ok 4%N).
Proof. split; [exact b1_valid|split; [exact b3_valid|split; comp]]. Qed.
Lemma c16_heights_debug_case : @merge_reveal toy Debug b1 b3 = Ret (b13, Ok 4%N) /\
  heights_sum 2 (mb_cross_section b13) = 4%N.
Proof. split; comp. Qed.

(** ** C17-C21 *)
Lemma c17_debug_domain_case : valid_block b1 /\ @block_commit_id toy Debug b1 = Ret c0 /\
  mb_cross_section b1 = flatten 0 pt1 /\ pwf_loose (mb_depth b1) 0 pt1.
Proof. split; [exact b1_valid|split; [comp|split; [comp|cbn; lia]]]. Qed.
Lemma c18_vouches_case : valid_block b1 /\ valid_source src0 /\ try_commit src0 None = Ret (Ok t0) /\
  @block_commit_id toy Debug b1 = Ret c0 /\ @tree_commit_id toy Debug t0 = Ret c0 /\
  known_leaves (mb_cross_section b1) = [(p1, m1)].
Proof. split; [exact b1_valid|split; [exact src0_valid|split; [comp|split; [comp|split; comp]]]]. Qed.
Lemma c18_release_refuted_case : wf_block b0 /\ @block_commit_id toy Release b0 = Ret c0.
Proof. split; [exact b0_wf|comp]. Qed.
Definition pt1' : ptree := PBr (PBr (PConc e0) (PLeaf p1 m2)) (PConc h23).
Lemma c19_one_message_case :
  let b := MBlock Sha256t 2 0 (flatten 0 pt1') None in
  block_tree b1 pt1 /\ block_tree b pt1' /\ well_placed 2 0 pt1 /\ well_placed 2 0 pt1' /\
  @block_commit_id flat Debug b1 = Ret cflat /\ @block_commit_id flat Debug b = Ret cflat /\
  In (p1, m1) (known_leaves (mb_cross_section b1)) /\ In (p1, m2) (known_leaves (mb_cross_section b)) /\
  @block_commit_id toy Debug b1 <> @block_commit_id toy Debug b.
Proof.
  cbv zeta. split; [exact b1_tree|split; [split; [cbn; lia|split; [comp|split; [comp|cbn; lia]]]|]].
  split; [intros q p m [E|[]]; injection E as <- <- <-; comp|].
  split; [intros q p m [E|[]]; injection E as <- <- <-; comp|].
  split; [comp|split; [comp|split; [cbn; auto|split; [cbn; auto|vm_compute; discriminate]]]].
Qed.
Lemma c20_matches_case : wf_block b1 /\ wf_block b3 /\ @mb_matches toy Debug b1 b3 = Ret true /\
  @mb_matches toy Debug b1 b0' = Ret false.
Proof. split; [exact b1_wf|split; [exact b3_wf|split; comp]]. Qed.
Lemma c20_operations_case : wf_block b0 /\ @conceal_except toy Debug b0 [p1] = Ret (b1, Ok 3%N) /\
  @mb_matches toy Debug b0 b1 = Ret true /\ @merge_reveal toy Debug b1 b3 = Ret (b13, Ok 4%N).
Proof. split; [exact b0_wf|split; [comp|split; comp]]. Qed.
Lemma c20_trees_case : valid_source src0 /\ try_commit src0 None = Ret (Ok t0) /\
  valid_source src0' /\ try_commit src0' None = Ret (Ok t0') /\
  @mt_matches toy Debug t0 t0' = Ret false /\ @mt_matches toy Debug t0 t0 = Ret true.
Proof. split; [exact src0_valid|split; [comp|split; [exact src0'_valid|split; [comp|split; comp]]]]. Qed.
Lemma c21_decides_case : mp_matches pf1 pf1 = true /\ mp_matches pf1 (MProof Sha256t 1 1 (mp_path pf1)) = false /\
  mp_matches pf1 (MProof Sha256t 2 0 [h23]) = true.
Proof. split; [comp|split; comp]. Qed.
Lemma c50_length_case : @merge_reveal toy Debug b1 b3 = Ret (b13, Ok 4%N) /\ length (mb_cross_section b13) = 4.
Proof. split; comp. Qed.

(** ** C22-C28 *)
Lemma c22_total_case : exists r, @merklize toy [p1; p2; p3] = Ret r.
Proof. eexists. vm_compute. reflexivity. Qed.
Lemma splits3 a b c : splits [a; b; c] (TSplit (TTwo a b) (TOne c)).
Proof. apply (split_more [a; b] [c]); [cbn; lia|right; reflexivity|constructor|constructor]. Qed.
Lemma c23_balanced_case :
  let t := TSplit (TTwo p1 p2) (TOne p3) in
  splits [p1; p2; p3] t /\ @merkle_root_of toy [p1; p2; p3] (@mthash toy 3 0 t) /\
  @merklize toy [p1; p2; p3] = Ret (@mthash toy 3 0 t).
Proof.
  cbv zeta. split; [apply splits3|split; [|comp]].
  apply (@root_tree toy [p1; p2; p3]); [discriminate|apply splits3].
Qed.
Lemma c23_perfect_case : @merklize toy [p1; p2; p3; p5] =
  Ret (@perfect toy 4 0 2 0 (fun i => nth (N.to_nat i) [p1; p2; p3; p5] p1)).
Proof. comp. Qed.
Lemma c24_binding_case : exists L L', @merklize flat [p1; p2] = Ret cflat /\ @merklize flat [p3; p1; p2] = Ret cflat /\
  @root_hashed flat [p1; p2] L /\ @root_hashed flat [p3; p1; p2] L' /\
  @merklize toy [p1; p2] <> @merklize toy [p3; p1; p2].
Proof.
  eexists. eexists. split; [comp|split; [comp|split; [|split; [|vm_compute; discriminate]]]].
  - apply (@hashed_tree flat [p1; p2] (TTwo p1 p2)); [discriminate|constructor].
  - apply (@hashed_tree flat [p3; p1; p2]); [discriminate|apply splits3].
Qed.
Lemma c24_mpc_leaves_case :
  let ls := [Inhabited p1 m1] in let ls' := [Entropy 7 0; Inhabited p1 m1] in
  exists L L', Forall valid_leaf ls /\ Forall valid_leaf ls' /\
  @merklize flat (map (@leaf_commit_id flat) ls) = Ret cflat /\ @merklize flat (map (@leaf_commit_id flat) ls') = Ret cflat /\
  @root_hashed flat (map (@leaf_commit_id flat) ls) L /\ @root_hashed flat (map (@leaf_commit_id flat) ls') L'.
Proof.
  cbv zeta. eexists. eexists. split; [repeat constructor|split; [repeat constructor; cbn; lia|split; [comp|split; [comp|split]]]].
  - apply hashed_single.
  - eapply (@hashed_tree flat); [discriminate|apply split_two].
Qed.
Lemma c25_tags_case : str "a" <> str "b" /\ @tagged toy (str "a") [x00] <> @tagged toy (str "b") [x00] /\
  @tagged flat (str "a") [x00] = @tagged flat (str "b") [x00].
Proof. split; [discriminate|split; [vm_compute; discriminate|comp]]. Qed.
Lemma c28_subtree_case : fdepths 1 (PBr (PConc p1) (PBr (PLeaf p2 m1) (PLeaf p3 m1))) = [2; 3; 3] /\
  pushes (buoy_new 2) [3; 3] = Buoy 1 None /\ buoy_level (pushes (buoy_new 2) [3]) = 3.
Proof. split; [comp|split; comp]. Qed.
Lemma c28_level_case : fdepths 1 (PBr (PConc p1) (PBr (PLeaf p2 m1) (PBr (PLeaf p3 m1) (PConc p1)))) = [2; 3; 4; 4] /\
  pending [2; 3; 4] = [4; 3; 2] /\ pending [2; 3; 4; 4] = [1] /\ buoy_level (pushes (buoy_new 2) [3; 4]) = 4.
Proof. split; [comp|split; [comp|split; comp]]. Qed.
