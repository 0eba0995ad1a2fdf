(** Cases for the theorems about hashes common to two proofs. *)
From Verif Require Import Base BaseFacts OrdMap Strict Merkle MpcAtoms MpcTree MpcBlock.
From Verif Require Import SpecHash SpecTree SpecFull SpecLocal SpecCommit SpecValid SpecViewGame SpecSeek SpecShare.
From Verif Require Import TheoremsMpc CasesMpc CasesMisc CasesMore CasesExt CasesLocal.
Local Open Scope nat_scope.

(** [p2] and [p3] have the positions 2 and 3 in both trees, which have the entropies 7 and 8; the message of [p1] differs. Its two
    proofs share the hash of the full half and not the one of the empty slot beside it. *)
Lemma c120_shared_case : exists pf pf' a a' h, a <> a' /\
  valid_source src0 /\ valid_source src0' /\ try_commit src0 None = Ret (Ok t0) /\ try_commit src0' None = Ret (Ok t0') /\
  mt_entropy t0 <> mt_entropy t0' /\ In (p1, m1) (ms_messages src0) /\ In (p1, m2) (ms_messages src0') /\
  @to_merkle_proof toy Debug (@block_of_tree toy t0) p1 = Ret (Ok pf) /\ @to_merkle_proof toy Debug (@block_of_tree toy t0') p1 = Ret (Ok pf') /\
  rev (mp_path pf) = [a; h] /\ rev (mp_path pf') = [a'; h] /\ same_beside t0 (mp_pos pf) t0' (mp_pos pf') 1 /\
  ~ same_beside t0 (mp_pos pf) t0' (mp_pos pf') 0.
Proof.
  eexists _, _, _, _, _. split; [shelve|]. split; [vsrc|split; [vsrc|split; [comp|split; [comp|split; [discriminate|split; [cbn; tauto|split; [cbn; tauto|]]]]]]].
  split; [comp|split; [comp|split; [comp|split; [comp|split]]]].
  - split; [right; reflexivity|]. intros i B. change (2 ^ N.of_nat 1)%N with 2%N in B. assert (i = 0 \/ i = 1)%N as [-> | ->] by lia; comp.
  - intros [_ Q]. specialize (Q 0%N eq_refl). vm_compute in Q. discriminate Q.
  Unshelve. vm_compute. discriminate.
Qed.
Lemma c120_neighbour_case : valid_source src0 /\ valid_source src0' /\ try_commit src0 None = Ret (Ok t0) /\ try_commit src0' None = Ret (Ok t0') /\
  mt_entropy t0 <> mt_entropy t0' /\ In (p3, m1) (ms_messages src0) /\ In (p3, m1) (ms_messages src0') /\
  In (p2, m2) (ms_messages src0) /\ In (p2, m2) (ms_messages src0') /\ side_by_side t0 p3 p2 /\ side_by_side t0' p3 p2.
Proof.
  split; [vsrc|split; [vsrc|split; [comp|split; [comp|split; [discriminate|]]]]]. repeat (split; [cbn; tauto|]).
  split; exists 1%N; right; split; comp.
Qed.
(** The empty slot 0 beside [p1] in two trees with the same entropy and another message for [p1] *)
Lemma c120_unlinked_case : exists pf h, valid_source src0 /\ valid_source srcx /\ try_commit src0 None = Ret (Ok t0) /\ try_commit srcx None = Ret (Ok tx) /\
  In (p1, m1) (ms_messages src0) /\ In (p1, m2) (ms_messages srcx) /\
  @to_merkle_proof toy Debug (@block_of_tree toy t0) p1 = Ret (Ok pf) /\ @to_merkle_proof toy Debug (@block_of_tree toy tx) p1 = Ret (Ok pf) /\
  nth_error (rev (mp_path pf)) 0 = Some h /\ beside (mp_pos pf) 0 0 /\ slot_of t0 0 = None /\ slot_of t0 1 <> slot_of tx 1.
Proof.
  eexists _, _. split; [exact src0_valid|split; [exact srcx_valid|split; [comp|split; [comp|split; [cbn; tauto|split; [cbn; tauto|]]]]]].
  split; [comp|split; [comp|split; [comp|split; [comp|split; [comp|vm_compute; discriminate]]]]].
Qed.
(** The proofs of the neighbours [p2] and [p3] share the hash of the other half. *)
Lemma c120_within_case : exists pf2 pf3 a b h, a <> b /\ valid_source src0 /\ try_commit src0 None = Ret (Ok t0) /\
  In (p2, m2) (ms_messages src0) /\ In (p3, m1) (ms_messages src0) /\
  @to_merkle_proof toy Debug (@block_of_tree toy t0) p2 = Ret (Ok pf2) /\ @to_merkle_proof toy Debug (@block_of_tree toy t0) p3 = Ret (Ok pf3) /\
  rev (mp_path pf2) = [a; h] /\ rev (mp_path pf3) = [b; h] /\ (mp_pos pf2 / 2 = mp_pos pf3 / 2)%N /\ mp_pos pf2 <> mp_pos pf3.
Proof.
  eexists _, _, _, _, _. split; [shelve|]. split; [exact src0_valid|split; [comp|split; [cbn; tauto|split; [cbn; tauto|]]]].
  split; [comp|split; [comp|split; [comp|split; [comp|split; [comp|vm_compute; discriminate]]]]].
  Unshelve. vm_compute. discriminate.
Qed.
