(** Cases for the theorems about numbers of sequences of ids. *)
From Verif Require Import Base SpecTree SpecValid SpecCommit SpecCount MpcAtoms MpcTree TheoremsMpc CasesMpc.
From Coq Require Import Permutation.
Local Open Scope nat_scope.

Lemma c86_all_case : length [p1; p2; p3] = 3.
Proof. reflexivity. Qed.
Lemma c86_exact_case : spread 2 [p1; p2; p3] /\ ~ spread 2 [p1; p5] /\ choices 2 2 = (2 ^ 256 * (3 * 2 ^ 254))%N /\
  choices 2 4 <> 0%N /\ choices 2 5 = 0%N.
Proof.
  split; [|split; [|split; [comp|split; [discriminate|comp]]]].
  - unfold spread. replace (map _ _) with [1; 2; 3]%N by comp. repeat constructor; cbn; intuition discriminate.
  - unfold spread. replace (map _ _) with [1; 1]%N by comp. intros N. inversion N; subst. cbn in *. tauto.
Qed.
Lemma c86_few_fail_case : length [p1; p5] = 2 /\ ~ spread 2 [p1; p5].
Proof. split; [reflexivity|apply c86_exact_case]. Qed.
Lemma c86_depth_case : valid_source src0 /\ spread 2 (map fst (ms_messages src0)) /\ ms_min_depth src0 <= 2 /\
  exists t, try_commit src0 None = Ret (Ok t) /\ mt_depth t = 2.
Proof.
  split; [exact src0_valid|split; [apply c86_exact_case|split; [cbn; lia|]]]. eexists. split; [vm_compute; reflexivity|reflexivity].
Qed.
(** Two ids which are apart at no depth need another cofactor (here: there is none). *)
Lemma c86_small_case : valid_source src31 /\ try_commit src31 None = Ret (Err (CantFitInMaxSlots 2)) /\
  ~ spread 31 (map fst (ms_messages src31)) /\ Permutation (map fst (ms_messages src0)) [p3; p1; p2].
Proof.
  split; [exact src31_valid|split; [comp|split]].
  - unfold spread. replace (map _ _) with [0; 0]%N by comp. intros N. inversion N; subst. cbn in *. tauto.
  - cbn. apply Permutation_sym. change [p1; p2; p3] with ([p1; p2] ++ [p3]). apply Permutation_cons_append.
Qed.
Lemma c86_capacity_case : (N.of_nat 3 < 2 ^ 24)%N /\ length (ms_messages src0) = 3 /\ ms_min_depth src0 = 2.
Proof. split; [reflexivity|split; reflexivity]. Qed.
