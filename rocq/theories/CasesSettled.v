(** Concrete cases meeting the hypotheses of the theorems of TheoremsSettled.v. *)
From Verif Require Import Base BaseFacts OrdMap Strict Digest Merkle MpcAtoms MpcTree MpcBlock Engine Schemes.
From Verif Require Import SpecHash SpecTree SpecMerkle SpecFull SpecValid SpecCommit SpecDerived SpecBlock SpecSettled.
From Verif Require Import TheoremsMpc TheoremsBlock TheoremsMore CasesMpc CasesMore CasesExt TheoremsSettled.
Local Open Scope nat_scope.

(** After the complete tree: a subtree with a revealed leaf, a node beside it, two nodes of one depth which are no siblings, a
    pair just below the leaves, a lone node there, and one far too deep. *)
Definition tail1 : list (nat * ptree) :=
  [(1, PBr (PConc m1) (PLeaf p2 m2)); (2, PConc m1); (1, PConc m2); (1, PConc m1);
   (2, PBr (PConc m1) (PConc m2)); (3, PConc m1); (9, PConc m2); (0, PConc m1)].
Definition b1t : merkle_block := MBlock Sha256t 2 0 (mb_cross_section b1 ++ frontiers tail1) None.
Lemma b1t_valid : valid_block b1t.
Proof. split; [cbn; lia|split; [comp|split; [cbn; lia|split; [|exact I]]]]. cbn. repeat constructor; cbn; lia. Qed.
Lemma tail1_settled : settled 2 4 0 tail1.
Proof. cbn. repeat split; try lia; try (intros; discriminate). Qed.
Lemma c121_value_case : valid_block b1t /\ mb_cross_section b1t = flatten 0 pt1 ++ frontiers tail1 /\ pwf_loose (mb_depth b1t) 0 pt1 /\
  settled (mb_depth b1t) (2 ^ N.of_nat (mb_depth b1t)) 0 tail1 /\ @block_commit_id toy Release b1t = Ret c0.
Proof.
  split; [exact b1t_valid|split; [comp|split; [cbn; lia|split; [exact tail1_settled|comp]]]].
Qed.
(** Two siblings after the tree become a second root, and the next pass panics. *)
Definition b1s : merkle_block := MBlock Sha256t 2 0 (mb_cross_section b1 ++ [ConcealedNode 1 m1; ConcealedNode 1 m2]) None.
Lemma b1s_valid : valid_block b1s.
Proof. split; [cbn; lia|split; [comp|split; [cbn; lia|split; [|exact I]]]]. cbn. repeat constructor; cbn; lia. Qed.
Lemma c121_domain_case : valid_block b1t /\ @block_commit_id toy Release b1t = Ret c0 /\
  valid_block b1s /\ (exists x, @block_commit_id toy Release b1s = Panic x) /\
  ~ settled (mb_depth b1s) (2 ^ N.of_nat (mb_depth b1s)) 0 [(1, PConc m1); (1, PConc m2)] /\
  ~ settled (mb_depth b1s) (2 ^ N.of_nat (mb_depth b1s)) 0 [(0, PBr (PConc m1) (PConc m2))].
Proof.
  split; [exact b1t_valid|split; [comp|split; [exact b1s_valid|split; [eexists; vm_compute; reflexivity|split]]]].
  - intros [_ [_ [_ [_ [X _]]]]]. destruct (X eq_refl) as [_ Y]. apply Y. reflexivity.
  - intros [_ [X _]]. destruct (X eq_refl) as [Y _]. lia.
Qed.
Lemma c121_unique_case : valid_block b1t /\ mb_cross_section b1t = flatten 0 pt1 ++ frontiers tail1 /\ pwf_loose (mb_depth b1t) 0 pt1 /\
  settled (mb_depth b1t) (2 ^ N.of_nat (mb_depth b1t)) 0 tail1 /\ length tail1 = 8.
Proof.
  split; [exact b1t_valid|split; [comp|split; [cbn; lia|split; [exact tail1_settled|reflexivity]]]].
Qed.
