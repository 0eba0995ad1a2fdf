(** Cases for the theorems about the loops as written. *)
From Verif Require Import Base OrdMap Merkle MpcAtoms MpcTree MpcBlock Loops TheoremsMpc CasesMpc.
Local Open Scope nat_scope.

Lemma c88_buoy_case : let x := Buoy 4 (Some (Buoy 5 (Some (Buoy 6 None)))) in
  buoy_size x = 3 /\ lit_push 3 x 6 = Ret (true, Buoy 3 None) /\ lit_push 2 x 6 = Panic PFuel.
Proof. repeat split; comp. Qed.
Lemma c88_with_case : lit_with (mp_path pf1) 0 (mp_pos pf1) 4 [] [] = with_loop (mp_path pf1) 0 (mp_pos pf1) 4 /\
  (exists d r, lit_with (mp_path pf1) 0 (mp_pos pf1) 4 [] [] = Ret (d, r) /\ length d + length r = 2).
Proof. split; [comp|]. do 2 eexists. split; [vm_compute; reflexivity|reflexivity]. Qed.
Lemma c88_search_case : exists m, lit_search 32 (ms_messages src0) [] 0 1 = Ret (Ok (2, 0%N, m)) /\ length m = 3.
Proof. eexists. split; [vm_compute; reflexivity|reflexivity]. Qed.
Lemma c88_conceal_case : @lit_conceal_except toy Debug b0 [p1] = Ret (b1, Ok 3%N) /\
  length (mb_cross_section b0) = 4 /\ length (mb_cross_section b1) = 3.
Proof. repeat split; comp. Qed.
Lemma c88_merge_case : lit_merge_sections 2 (mb_cross_section b1) (mb_cross_section b3) = Ret (mb_cross_section b13) /\
  length (mb_cross_section b13) = 4.
Proof. split; comp. Qed.
Lemma c88_panics_case :
  @lit_conceal_except toy Release (MBlock Sha256t 1 0 [ConcealedNode 0 p1; ConcealedNode 0 p2] None) [] = Panic PArith /\
  @lit_conceal_except toy Debug (MBlock Sha256t 2 0 [ConcealedNode 2 p1; ConcealedNode 2 p2] None) [] = Panic PDebugAssert /\
  lit_merge_sections 0 [CommitmentLeaf p1 m1] [CommitmentLeaf p2 m2] = Panic PUnreachable.
Proof. repeat split; comp. Qed.
