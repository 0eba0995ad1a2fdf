(** Concrete cases meeting the hypotheses of the theorems of TheoremsFuse.v. *)
From Verif Require Import Base BaseFacts OrdMap Strict Digest Merkle MpcAtoms MpcTree MpcBlock Engine Schemes.
From Verif Require Import SpecHash SpecTree SpecMerkle SpecFull SpecValid SpecCommit SpecDerived SpecBlock SpecSettled SpecFuse.
From Verif Require Import TreeFacts TheoremsMpc TheoremsBlock TheoremsMore CasesMpc CasesMore CasesExt CasesSettled TheoremsFuse.
Local Open Scope nat_scope.

(** One node after the tree is dropped by the merge; of two nodes far too deep one is left; the long tail is not accepted. *)
Definition b1j : merkle_block := MBlock Sha256t 2 0 (mb_cross_section b1 ++ [ConcealedNode 1 m1]) None.
Definition b1d : merkle_block := MBlock Sha256t 2 0 (mb_cross_section b1 ++ [ConcealedNode 9 m1; ConcealedNode 7 m2]) None.
Definition b3d : merkle_block := MBlock Sha256t 2 0 (mb_cross_section b13 ++ [ConcealedNode 7 m2]) (mb_entropy b3).
Lemma b1j_valid : valid_block b1j.
Proof. split; [cbn; lia|split; [comp|split; [cbn; lia|split; [|exact I]]]]. cbn. repeat constructor; cbn; lia. Qed.
Lemma b1d_valid : valid_block b1d.
Proof. split; [cbn; lia|split; [comp|split; [cbn; lia|split; [|exact I]]]]. cbn. repeat constructor; cbn; lia. Qed.
Lemma c124_exact_case : valid_block b3 /\ valid_block b1d /\
  mb_cross_section b3 = flatten 0 pt3 ++ frontiers [] /\ pwf_loose (mb_depth b3) 0 pt3 /\
  mb_cross_section b1d = flatten 0 pt1 ++ frontiers [(9, PConc m1); (7, PConc m2)] /\ pwf_loose (mb_depth b1d) 0 pt1 /\
  settled (mb_depth b1d) (2 ^ N.of_nat (mb_depth b1d)) 0 [(9, PConc m1); (7, PConc m2)] /\
  @pcommit toy (mb_depth b3) (mb_cofactor b3) pt3 = @pcommit toy (mb_depth b1d) (mb_cofactor b1d) pt1 /\
  @merge_reveal toy Release b3 b1d = Ret (b3d, Ok 5%N) /\ mb_cross_section b1t = flatten 0 pt1 ++ frontiers tail1 /\
  exists p, @merge_reveal toy Release b3 b1t = Panic p.
Proof.
  split; [exact b3_valid|split; [exact b1d_valid|split; [comp|split; [cbn; lia|split; [comp|split; [cbn; lia|]]]]]].
  split; [cbn; repeat split; intros; try lia; try discriminate|]. split; [comp|split; [comp|split; [comp|]]].
  eexists. vm_compute. reflexivity.
Qed.
(** Both blocks carry nodes after their trees. *)
Definition b3j : merkle_block := MBlock Sha256t 2 0 (mb_cross_section b3 ++ [ConcealedNode 1 m2]) None.
Definition b13n : merkle_block := MBlock Sha256t 2 0 (mb_cross_section b13) None.
Lemma b3j_valid : valid_block b3j.
Proof. split; [cbn; lia|split; [comp|split; [cbn; lia|split; [|exact I]]]]. cbn. repeat constructor; cbn; lia. Qed.
Lemma c124_narrow_case : valid_block b3j /\ valid_block b1j /\
  shallow_nodes (mb_depth b3j) (mb_cross_section b3j) /\ shallow_nodes (mb_depth b1j) (mb_cross_section b1j) /\
  (heights_sum (mb_depth b3j) (mb_cross_section b3j) + heights_sum (mb_depth b1j) (mb_cross_section b1j) <
   2 ^ 32 + 2 * 2 ^ N.of_nat (mb_depth b3j))%N /\
  @merge_reveal toy Release b3j b1j = Ret (b13n, Ok 4%N) /\ ~ wf_block b3j.
Proof.
  split; [exact b3j_valid|split; [exact b1j_valid|split; [cbn; repeat constructor; lia|split; [cbn; repeat constructor; lia|]]]].
  split; [vm_compute; reflexivity|split; [comp|]]. intros [t [_ [_ [X P]]]].
  pose proof (PoisonProofs.heights_flatten _ _ _ P) as Q. rewrite <- X in Q. vm_compute in Q. discriminate Q.
Qed.
Definition b3x : merkle_block := Eval vm_compute in fst (or_else (b3j, Err (UnrelatedBlocks p1 p1)) (@merge_reveal toy Release b3j b1d)).
Lemma c124_honest_case : valid_source src0 /\ try_commit src0 None = Ret (Ok t0) /\ @tree_commit_id toy Release t0 = Ret c0 /\
  valid_block b3j /\ valid_block b1d /\ @block_commit_id toy Release b3j = Ret c0 /\
  (heights_sum (mb_depth b3j) (mb_cross_section b3j) + heights_sum (mb_depth b1d) (mb_cross_section b1d) <
   2 ^ 32 + 2 * 2 ^ N.of_nat (mb_depth b3j))%N /\
  @merge_reveal toy Release b3j b1d = Ret (b3x, Ok 6%N) /\ known_leaves (mb_cross_section b3x) = [(p1, m1); (p3, m1)].
Proof.
  split; [exact src0_valid|split; [comp|split; [comp|split; [exact b3j_valid|split; [exact b1d_valid|]]]]].
  split; [comp|split; [vm_compute; reflexivity|split; comp]].
Qed.
