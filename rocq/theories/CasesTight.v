(** Cases for the theorems about derived equalities, failing encoders and placeholders. *)
From Verif Require Import Base BaseFacts OrdMap Strict Digest Merkle MpcAtoms MpcTree MpcBlock Engine EngineIo Schemes Dumb Api SpecEngine TheoremsMpc CasesMpc CasesMisc.
Local Open Scope nat_scope.

Lemma c33_equality_case : tree_node_eqb (CommitmentLeaf p1 m1) (CommitmentLeaf p1 m2) = false /\
  tree_node_eqb (CommitmentLeaf p1 m1) (CommitmentLeaf p1 m1) = true /\
  tree_node_eqb (ConcealedNode 2 p1) (ConcealedNode 3 p1) = false.
Proof. split; [comp|split; comp]. Qed.
Lemma c67_calls_case : exists e, commit_to_linear_list Release (Typed (SType "Test" (Some "U8"%string)) (c_le 1)) 1 300 [5%N; 6%N]
    (@engine_new toy (str "tag")) = Ret e /\
  en_layout e = [StCollection ColList (Sizing 1 300) (Fqn "Test" "U8")] /\
  en_hasher e = en_hasher (@engine_new toy (str "tag")) ++ [x02; x00; x05; x06].
Proof. eexists. split; [comp|split; comp]. Qed.
Lemma c67_failing_calls_case :
  exists e, commit_to_linear_io Release (Ret ColList) 1 300 (SType "Test" (Some "U8"%string)) ([x02; x00; x05], false)
    (@engine_new toy (str "tag")) = Ret e /\
  commit_to_linear_io Debug (Ret ColList) 1 300 (SType "Test" (Some "U8"%string)) ([x02; x00; x05], false)
    (@engine_new toy (str "tag")) = Panic PDebugAssert.
Proof. eexists. split; comp. Qed.
Lemma c79_values_case : dec c_merkle_block (enc c_merkle_block dumb_block ++ [x07]) = Some (MBlock Sha256t 1 0 [ConcealedNode 0 zero32] (Some 8845%N), [x07]) /\
  dec c_leaf (x11 :: repeat x00 12) = Some (dumb_leaf, []).
Proof. split; comp. Qed.
Lemma c36_failure_case : ~ not_reserved_type (SType "CommitVerify" (Some "StrictHash"%string)) /\
  @run1 toy Debug (FSerialized (Typed (SType "CommitVerify" (Some "StrictHash"%string)) c_b32) p1) (@engine_new toy (str "tag"))
    = Panic PDebugAssert /\
  @run1 toy Release (FOption (Typed (SType "Lib" None) (c_le 1)) None) (@engine_new toy (str "tag")) = Panic PExpect.
Proof. split; [intros [_ X]; apply X; reflexivity|split; comp]. Qed.
Lemma c46_numbers_case : discriminant SealIssues = 255%N /\ validity_cmp Invalid SealIssues = Lt.
Proof. split; comp. Qed.
Lemma c53_block_case : mb_cross_section (@block_of_tree toy t0) = mb_cross_section b0 /\ mb_entropy b0 = Some 7%N /\ length (mb_cross_section b0) = 4 /\
  om_get N.ltb 1%N (mt_map t0) = Some (p1, m1) /\ om_get N.ltb 0%N (mt_map t0) = None.
Proof. repeat (split; [comp|]). comp. Qed.
