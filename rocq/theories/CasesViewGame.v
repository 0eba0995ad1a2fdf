(** Cases for the theorems about what a proof tells. *)
From Verif Require Import Base BaseFacts OrdMap Strict Merkle MpcAtoms MpcTree MpcBlock.
From Verif Require Import SpecHash SpecTree SpecFull SpecLocal SpecCommit SpecValid SpecGame SpecHideGame SpecViewGame.
From Verif Require Import TheoremsMpc CasesMpc CasesMisc CasesMore CasesExt TheoremsGame TheoremsHideGame CasesHideGame TheoremsViewGame.
Local Open Scope nat_scope.

(** In both trees slot 0 is empty and slot 1 has the message of [p1], different in the two; [p2] and [p3] are in the slots 2 and 3. *)
Definition treed : merkle_tree := match try_commit srcd (Some 0%N) with Ret (Ok t) => t | _ => t0 end.
Definition treed' : merkle_tree := match try_commit srcd' (Some 0%N) with Ret (Ok t) => t | _ => t0 end.
Lemma treed_made : try_commit srcd (Some 0%N) = Ret (Ok treed). Proof. comp. Qed.
Lemma treed'_made : try_commit srcd' (Some 0%N) = Ret (Ok treed'). Proof. comp. Qed.
Lemma treed_screened : screened treed treed' (s_pos p2 (mt_cofactor treed) (mt_depth treed)).
Proof.
  replace (s_pos p2 (mt_cofactor treed) (mt_depth treed)) with 2%N by comp. intros k L.
  replace (mt_depth treed) with 2 in L by comp. destruct k as [|[|k]]; [right|left; exists 0%N, 0%N|lia].
  - intros i B. apply beside_range in B. replace i with 3%N; [comp|].
    replace (sib 2 0) with 3%N in B by comp. change (2 ^ N.of_nat 0)%N with 1%N in B. lia.
  - repeat split; comp.
Qed.
Lemma treed_differ : slot_of treed 1 <> slot_of treed' 1. Proof. vm_compute. discriminate. Qed.

(** Asks whether the hash of the string [s] is in the path. *)
Definition prober (pf : merkle_proof) : prog bool := Ask [x01] (fun a => Done (existsb (b32_eqb a) (mp_path pf))).
Lemma prober_modest pf : modest 162 1 (prober pf).
Proof. cbn. split; [lia|intros; exact I]. Qed.

Lemma c94_hidden_case : exists U k1 k2, universe 162 U /\ (forall pf, modest 162 1 (prober pf)) /\
  valid_source srcd /\ valid_source srcd' /\ ms_static_entropy srcd = None /\ ms_static_entropy srcd' = None /\
  try_commit srcd (Some 0%N) = Ret (Ok treed) /\ try_commit srcd' (Some 0%N) = Ret (Ok treed') /\
  ms_method srcd = ms_method srcd' /\ mt_depth treed = mt_depth treed' /\ mt_cofactor treed = mt_cofactor treed' /\ mt_depth treed <= 2 /\
  In (p2, m2) (ms_messages srcd) /\ In (p2, m2) (ms_messages srcd') /\
  screened treed treed' (s_pos p2 (mt_cofactor treed) (mt_depth treed)) /\ slot_of treed 1 <> slot_of treed' 1 /\
  counts (guesses_proof U srcd p2 prober) k1 /\ counts (guesses_proof U srcd' p2 prober) k2.
Proof.
  destruct (all_strings 162) as [U UU].
  assert (I1 : In (p2, m2) (ms_messages srcd)) by (right; left; reflexivity).
  assert (I2 : In (p2, m2) (ms_messages srcd')) by (right; left; reflexivity).
  destruct (c94_meaning 162 U prober srcd treed p2 m2 UU srcd_valid eq_refl treed_made I1) as ([k1 C1] & _).
  destruct (c94_meaning 162 U prober srcd' treed' p2 m2 UU srcd'_valid eq_refl treed'_made I2) as ([k2 C2] & _).
  exists U, k1, k2. split; [exact UU|split; [exact prober_modest|split; [exact srcd_valid|split; [exact srcd'_valid|]]]].
  split; [reflexivity|split; [reflexivity|split; [exact treed_made|split; [exact treed'_made|]]]].
  split; [reflexivity|split; [comp|split; [comp|split; [vm_compute; lia|]]]].
  split; [exact I1|split; [exact I2|split; [exact treed_screened|split; [exact treed_differ|split; assumption]]]].
Qed.
Lemma c94_numbers_case : (N.of_nat 1 <= 2 ^ 40)%N /\ mt_depth treed <= 16 /\
  screened treed treed' (s_pos p2 (mt_cofactor treed) (mt_depth treed)).
Proof. split; [vm_compute; discriminate|split; [vm_compute; lia|exact treed_screened]]. Qed.

(** [p3] has [p2] as its neighbour. *)
Definition srce : multi_source := MultiSource (ms_method src0) (ms_min_depth src0) [(p1, m1); (p2, m1); (p3, m1)] None.
Definition treee : merkle_tree := match try_commit srce (Some 0%N) with Ret (Ok t) => t | _ => t0 end.
Lemma c94_seen_case : exists U, universe 162 U /\ valid_source srcd /\ valid_source srce /\
  try_commit srcd (Some 0%N) = Ret (Ok treed) /\ try_commit srce (Some 0%N) = Ret (Ok treee) /\
  mt_depth treed = mt_depth treee /\ mt_cofactor treed = mt_cofactor treee /\ mt_depth treed <= 2 /\
  In (p3, m1) (ms_messages srcd) /\ In (p3, m1) (ms_messages srce) /\ 0 < mt_depth treed /\
  (forall i, beside (s_pos p3 (mt_cofactor treed) (mt_depth treed)) 0 i -> slot_of treed i <> None) /\
  beside (s_pos p3 (mt_cofactor treed) (mt_depth treed)) 0 2 /\ slot_of treed 2 <> slot_of treee 2.
Proof.
  destruct (all_strings 162) as [U UU]. exists U. split; [exact UU|split; [exact srcd_valid|split; [vsrc|]]].
  split; [exact treed_made|split; [comp|split; [comp|split; [comp|split; [vm_compute; lia|]]]]].
  split; [right; right; left; reflexivity|split; [right; right; left; reflexivity|split; [vm_compute; lia|]]].
  replace (s_pos p3 (mt_cofactor treed) (mt_depth treed)) with 3%N by comp. split; [|split; [comp|vm_compute; discriminate]].
  intros i B. apply beside_range in B. replace (sib 3 0) with 2%N in B by comp. change (2 ^ N.of_nat 0)%N with 1%N in B.
  replace i with 2%N by lia. vm_compute. discriminate.
Qed.
Lemma c94_meaning_case : valid_source srcd /\ try_commit srcd (Some 0%N) = Ret (Ok treed) /\ In (p2, m2) (ms_messages srcd).
Proof. split; [exact srcd_valid|split; [exact treed_made|right; left; reflexivity]]. Qed.
