(** Concrete cases meeting the hypotheses of the theorems of TheoremsFeed.v. *)
From Verif Require Import Base BaseFacts OrdMap Strict Digest Merkle MpcAtoms MpcTree MpcBlock Engine Schemes.
From Verif Require Import SpecHash SpecTree SpecMerkle SpecFull SpecValid SpecCommit SpecDerived SpecBlock SpecSettled SpecSession SpecFuse SpecFeed.
From Verif Require Import TreeFacts TheoremsMpc TheoremsBlock TheoremsMore CasesMpc CasesMore CasesExt CasesSettled CasesSession CasesFuse SpecFind SpecQuery SpecGame SpecTarget SpecScript TheoremsQuery TheoremsCount TheoremsGame TheoremsTarget CasesMisc CasesAdv CasesLocal CasesGame CasesTarget CasesScript TheoremsScript TheoremsFeed.
Local Open Scope nat_scope.

(** A block showing [p3] is received first, then one showing [p1] which carries a node after its tree. *)
Lemma first3 : @reception toy Release c0 (@pcommit_pre toy 2 0 pt3) b3.
Proof.
  apply (@rc_block toy Release c0 (enc c_merkle_block b3) b3 pt3 []); [comp|comp|cbn; repeat constructor; lia|intros _; comp|comp|cbn; lia].
Qed.
Lemma fed13 : @reception toy Release c0 (@pcommit_pre toy 2 0 pt3 ++ @pcommit_pre toy 2 0 pt1) b13.
Proof.
  apply (@rc_feed toy Release c0 _ b3 (enc c_merkle_block b1j) b1j pt1 [ConcealedNode 1 m1] b13 (Ok 4%N));
    [exact first3|comp| |comp|cbn; lia|comp].
  intros _. split; [cbn; repeat constructor; lia|vm_compute; reflexivity].
Qed.
Lemma b1j_loose : ~ wf_block b1j.
Proof.
  intros [t [_ [_ [X P]]]]. pose proof (PoisonProofs.heights_flatten _ _ _ P) as Q. rewrite <- X in Q. vm_compute in Q. discriminate Q.
Qed.
Lemma c125_session_case : valid_source src0 /\ try_commit src0 None = Ret (Ok t0) /\ @tree_commit_id toy Release t0 = Ret c0 /\
  @reception toy Release c0 (@pcommit_pre toy 2 0 pt3 ++ @pcommit_pre toy 2 0 pt1) b13 /\ ~ wf_block b1j /\
  @merge_reveal toy Release b3 b1j = Ret (b13, Ok 4%N).
Proof. split; [exact src0_valid|split; [comp|split; [comp|split; [exact fed13|split; [exact b1j_loose|comp]]]]]. Qed.
Lemma c125_truth_case : valid_source src0 /\ try_commit src0 None = Ret (Ok t0) /\ @tree_commit_id toy Debug t0 = Ret c0 /\
  @reception toy Release c0 (@pcommit_pre toy 2 0 pt3 ++ @pcommit_pre toy 2 0 pt1) b13 /\
  known_leaves (mb_cross_section b13) = [(p1, m1); (p3, m1)].
Proof. split; [exact src0_valid|split; [comp|split; [comp|split; [exact fed13|comp]]]]. Qed.
Lemma c125_operations_case : valid_source src0 /\ try_commit src0 None = Ret (Ok t0) /\ @tree_commit_id toy Debug t0 = Ret c0 /\
  @reception toy Release c0 (@pcommit_pre toy 2 0 pt3 ++ @pcommit_pre toy 2 0 pt1) b13 /\ @reception toy Release c0 (@pcommit_pre toy 2 0 pt3) b3 /\
  @merge_reveal toy Release b3 b13 = Ret (b13, Ok 4%N).
Proof. split; [exact src0_valid|split; [comp|split; [comp|split; [exact fed13|split; [exact first3|comp]]]]]. Qed.
Lemma c125_accepts_case : valid_source src0 /\ try_commit src0 None = Ret (Ok t0) /\ @tree_commit_id toy Debug t0 = Ret c0 /\
  @reception toy Release c0 (@pcommit_pre toy 2 0 pt3) b3 /\ dec c_merkle_block (enc c_merkle_block b1) = Some (b1, []) /\
  block_tree b1 pt1 /\ @block_commit_id toy Release b1 = Ret c0 /\ known_leaves (mb_cross_section b1) = [(p1, m1)].
Proof.
  split; [exact src0_valid|split; [comp|split; [comp|split; [exact first3|split; [comp|split; [exact b1_tree|split; comp]]]]]].
Qed.
(** A receiver without debug assertions is not misled by the node after the tree; with a flat hash function a proof suffices. *)
Lemma c125_misled_case :
  (valid_source src0 /\ try_commit src0 None = Ret (Ok t0) /\ @tree_commit_id toy Debug t0 = Ret c0 /\
   @reception toy Release c0 (@pcommit_pre toy 2 0 pt3 ++ @pcommit_pre toy 2 0 pt1) b13) /\
  (valid_source src0' /\ try_commit src0' None = Ret (Ok t0') /\ @tree_commit_id flat Debug t0' = Ret cflat /\
   @reception flat Debug cflat (@proof_pre flat pf1 p1 m1) bx1 /\ @misled flat Debug src0' t0' cflat bx1).
Proof.
  split; [split; [exact src0_valid|split; [comp|split; [comp|exact fed13]]]|].
  split; [exact src0'_valid|split; [comp|split; [comp|split]]].
  - apply (@rc_proof flat Debug cflat (enc c_merkle_proof pf1)); comp.
  - apply (ml_message _ _ _ _ _ p1 m1); [vm_compute; tauto|exact not_in_src0'].
Qed.
Lemma c125_script_case : (exists U, universe 162 U /\ modest 162 1 adv112 /\ made_before 2 made0 /\
  exists f, length f = length U /\ exec (table U f) adv112 = script0 /\ traffic script0 <= 72 /\
    committed (table U f) made0 src0' t0' cflat /\ @receives (table U f) Debug cflat script0 block0 /\
    @misled (table U f) Debug src0' t0' cflat block0) /\
  @receives toy Release c0 (ScFeed (ScBlock (enc c_merkle_block b3)) (enc c_merkle_block b1j)) b13.
Proof.
  split.
  - destruct (all_strings 162) as [U UU]. exists U. split; [exact UU|split; [exact adv112_modest|split; [exact made0_before|]]].
    exists (map flat U). split; [apply flat_list|split; [reflexivity|split; [vm_compute; lia|split; [apply committed0|split; [|apply script0_misled]]]]].
    eapply (@rv_conceal _ _ _ _ bx1).
    + eapply rv_proof; [comp| |comp]. rewrite (c85_proof flat) by apply flat_agree. comp.
    + vm_compute. reflexivity.
  - eapply (@rv_feed _ _ _ _ b3).
    + apply rv_block; [comp|comp|cbn; repeat constructor; lia|intros _; comp].
    + comp.
    + intros _. split; [cbn; repeat constructor; lia|vm_compute; reflexivity].
    + comp.
Qed.
