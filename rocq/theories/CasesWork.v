(** Cases for the theorems of TheoremsWork.v. *)
From Verif Require Import Base OrdMap Merkle MpcAtoms MpcTree MpcBlock SpecTree SpecBlock SpecValid PoisonProofs Work TheoremsMpc CasesMpc TheoremsWork.
Local Open Scope nat_scope.

(** a block of eight leaves at depth 3, one of them concealed *)
Definition wide : merkle_block :=
  MBlock Sha256t 3 0 (map (fun i => if (i =? 5)%N then ConcealedNode 3 (b32_of_N 99) else CommitmentLeaf (b32_of_N i) (b32_of_N (i + 20)))
    [0; 1; 2; 3; 4; 5; 6; 7]%N) None.
(** a decoded block which is no frontier *)
Definition odd_block : merkle_block :=
  MBlock Sha256t 2 0 [ConcealedNode 2 (b32_of_N 1); ConcealedNode 2 (b32_of_N 2); ConcealedNode 1 (b32_of_N 3);
                      ConcealedNode 2 (b32_of_N 4)] None.
Definition work_of {A} (o : outcome (A * work)) : option work := match o with Ret (_, w) => Some w | Panic _ => None end.


Definition pf_left : merkle_proof := MProof Sha256t 0 0 (map b32_of_N [1; 2; 3; 4; 5]%N).
(** a tree as deep as the one mentioned in the test [tree_huge], tree.rs:308 *)
Definition deep_tree : merkle_tree := MTree Sha256t 23 7 103 [] [].

Lemma c104_same_case : work_of (@counted_except toy Debug wide [b32_of_N 2]) = Some (Work 3 11 10 8) /\
  (exists b, @conceal_except toy Debug wide [b32_of_N 2] = Ret (b, Ok 10%N) /\ length (mb_cross_section b) = 4) /\
  @counted_except toy Debug odd_block [] = Panic PDebugAssert /\
  work_of (@counted_tree toy Debug t0) = Some (Work 3 4 8 2) /\
  exists c, @counted_convolve toy Debug pf1 p1 m1 = Ret (Ok (c, Work 3 4 4 1)) /\ c = c0.
Proof.
  split; [comp|]. split; [eexists; split; comp|]. split; [comp|]. split; [comp|]. eexists. split; comp.
Qed.
Lemma c104_hashed_case :
  (exists b, @counted_except toy Release odd_block [] = Ret (b, Ok 2%N, Work 3 7 2 3)) /\
  exists b, @counted_except toy Debug wide [b32_of_N 77] = Ret (b, Err (b32_of_N 77), Work 0 0 7 0).
Proof. split; eexists; comp. Qed.
Lemma c104_any_case : mb_cross_section odd_block <> [] /\ ~ wf_block odd_block /\
  exists b r, @counted_except toy Release odd_block [] = Ret (b, r, Work 3 7 2 3).
Proof.
  split; [discriminate|]. split.
  - intros [t [_ [_ [E W]]]]. apply heights_flatten in W. rewrite <- E in W. vm_compute in W. discriminate.
  - do 2 eexists. comp.
Qed.
Lemma c104_formed_case : wf_block b0 /\ exists b, @counted_except toy Debug b0 [p1] = Ret (b, Ok 3%N, Work 2 4 3 0).
Proof. split; [exists pt0; exact b0_tree|]. eexists. comp. Qed.
Lemma c104_tree_case : mt_depth deep_tree = 23 /\
  forall (H : Hasher) md, exists c, @counted_tree H md deep_tree = Ret (c, Work 24 8388608 16777216 23456239670614).
Proof.
  split; [reflexivity|]. intros H md. destruct (@c104_tree H md deep_tree 23 eq_refl) as [c [m [E X]]]; [lia|].
  exists c. rewrite E. repeat f_equal. change (2 ^ N.of_nat 23)%N with 8388608%N in X.
  change (4 ^ N.of_nat 23)%N with 70368744177664%N in X. lia.
Qed.
Lemma c104_proof_case : length (mp_path pf1) = 2 /\ mp_pos pf1 = 1%N /\
  exists c, @counted_convolve toy Debug pf1 p1 m1 = Ret (Ok (c, Work 3 4 4 1)).
Proof. split; [reflexivity|]. split; [reflexivity|]. eexists. comp. Qed.
Lemma c104_leftmost_case : length (mp_path pf_left) = 5 /\ mp_pos pf_left = 0%N /\
  exists c, @counted_convolve toy Debug pf_left (b32_of_N 0) m1 = Ret (Ok (c, Work 6 16 7 10)).
Proof. split; [reflexivity|]. split; [reflexivity|]. eexists. comp. Qed.
Definition pf_five : merkle_proof := MProof Sha256t 5 0 (map b32_of_N [1; 2; 3; 4; 5]%N).
Lemma c104_moves_case :
  exists c, @counted_convolve toy Debug pf_five (b32_of_N 5) m1 = Ret (Ok (c, Work 6 16 7 8)).
Proof. eexists. comp. Qed.
