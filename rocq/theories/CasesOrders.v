(** Cases for the theorems about derived orders. *)
From Verif Require Import Base BaseFacts OrdMap Merkle MpcAtoms MpcTree MpcBlock Orders SpecOrders TheoremsMpc CasesMpc.
From Coq Require Import Sorting.Sorted Sorting.Permutation.
Local Open Scope nat_scope.

Lemma c89_linear_case : id_cmp p1 p2 = Lt /\ id_cmp p2 p1 = Gt /\ id_cmp p1 p1 = Eq /\
  proof_cmp (MProof Sha256t 1 0 [p1]) (MProof Sha256t 1 0 [p1; p1]) = Lt /\
  reserved_cmp [x00; x01] [x00; x02] = Lt /\ method_cmp Sha256t Sha256t = Eq.
Proof. repeat split; comp. Qed.
Lemma c89_ids_case : id_cmp (b32_of_N 256) (b32_of_N 1) = Lt /\ be_number (b32_of_N 0x0100 ) = (2 ^ 240)%N /\
  be_number (b32_of_N 1) = (2 ^ 248)%N.
Proof. split; [comp|split; comp]. Qed.
Lemma c89_proofs_case : proof_less (MProof Sha256t 3 9 []) (MProof Sha256t 5 0 [p1]) /\
  proof_cmp (MProof Sha256t 5 0 [p1]) (MProof Sha256t 3 9 []) = Gt /\
  proof_less (MProof Sha256t 3 9 [p1; p1]) (MProof Sha256t 3 9 [p1; p2]).
Proof.
  split; [left; reflexivity|split; [comp|]]. right. split; [reflexivity|]. right. split; [reflexivity|].
  exists [p1]. right. exists p1, p2, [], []. split; [reflexivity|split; [reflexivity|]]. vm_compute. reflexivity.
Qed.
Lemma c89_sources_case : source_less (MultiSource Sha256t 3 [(p1, m1)] None) (MultiSource Sha256t 3 [(p1, m1)] (Some 0%N)) /\
  source_cmp (MultiSource Sha256t 3 [(p1, m1)] (Some 7%N)) (MultiSource Sha256t 3 [(p1, m1); (p2, m2)] None) = Lt /\
  source_cmp (MultiSource Sha256t 4 [] None) (MultiSource Sha256t 3 [(p1, m1)] None) = Gt.
Proof. split; [right; split; [reflexivity|right; split; [reflexivity|exact I]]|split; comp]. Qed.
Lemma c89_errors_case : commit_error_cmp (CantFitInMaxSlots 1) (TooManyMessages 5) = Gt /\
  commit_error_cmp (CantFitInMaxSlots 1) (CantFitInMaxSlots 2) = Lt.
Proof. split; comp. Qed.
Lemma c89_maps_case : om_sorted b32_ltb [(p1, m1); (p2, m2)] = true /\ om_sorted b32_ltb [(p2, m2); (p1, m1)] = false.
Proof. split; comp. Qed.
Lemma c89_inserted_case : om_of_list b32_ltb [(p2, m1); (p1, m1); (p2, m2)] = [(p1, m1); (p2, m2)] /\
  last_entry [(p2, m1); (p1, m1); (p2, m2)] p2 m2.
Proof. split; [comp|]. exists [(p2, m1); (p1, m1)], []. split; [reflexivity|intros []]. Qed.
Lemma c89_order_free_case : Permutation [(p2, m2); (p1, m1)] [(p1, m1); (p2, m2)] /\ NoDup (map fst [(p2, m2); (p1, m1)]) /\
  exists t, try_commit (MultiSource Sha256t 3 (om_of_list b32_ltb [(p2, m2); (p1, m1)]) (Some 7%N)) None = Ret (Ok t).
Proof.
  split; [apply perm_swap|split].
  - constructor; [intros [X|[]]; apply (f_equal (fun a : bytes32 => b32_eqb a p2)) in X; vm_compute in X; discriminate|constructor; [intros []|constructor]].
  - eexists. comp.
Qed.
