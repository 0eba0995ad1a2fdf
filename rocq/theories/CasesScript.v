(** Cases for clients following a script: hash functions for which they are misled. *)
From Verif Require Import Base BaseFacts OrdMap Strict Merkle MpcAtoms MpcTree MpcBlock.
From Verif Require Import SpecHash SpecTree SpecMerkle SpecFull SpecValid SpecFind SpecBlock SpecQuery SpecGame SpecTarget SpecCodec SpecSession SpecScript.
From Verif Require Import TheoremsMpc CasesMpc CasesMisc CasesMore CasesExt CasesAdv CasesLocal CasesSession TheoremsQuery TheoremsGame CasesGame TheoremsTarget CasesTarget TheoremsScript.
Local Open Scope nat_scope.

(** A proof is accepted, its block concealed to the one message it shows. *)
Definition script0 : script := ScConceal (ScProof (enc c_merkle_proof pf1) p1 m1) [p1].
Definition block0 : merkle_block := Eval vm_compute in
  match @conceal_except flat Debug bx1 [p1] with Ret (b, _) => b | _ => b0 end.
Lemma script0_follows U : @follows (table U (map flat U)) Debug cflat script0 block0.
Proof.
  eapply (@fo_conceal _ _ _ _ bx1).
  - eapply fo_proof; [comp| |comp]. rewrite (c85_proof flat) by apply flat_agree. comp.
  - vm_compute. reflexivity.
Qed.
Lemma script0_misled H : @misled H Debug src0' t0' cflat block0.
Proof. apply (ml_message _ _ _ _ _ p1 m1); [vm_compute; tauto|exact not_in_src0']. Qed.

(** An honest session, and one where a flat hash function lets another message in *)
Lemma c112_extract_case :
  (valid_source src0 /\ try_commit src0 None = Ret (Ok t0) /\ @tree_commit_id toy Debug t0 = Ret c0 /\
   @session toy Debug c0 (@proof_pre toy pf1 p1 m1 ++ @pcommit_pre toy 2 0 pt3) b13) /\
  (valid_source src0' /\ try_commit src0' None = Ret (Ok t0') /\ @tree_commit_id flat Debug t0' = Ret cflat /\
   @session flat Debug cflat (@proof_pre flat pf1 p1 m1) bx1 /\ @misled flat Debug src0' t0' cflat bx1).
Proof.
  split; [split; [exact src0_valid|split; [comp|split; [comp|exact session13]]]|].
  split; [exact src0'_valid|split; [comp|split; [comp|split]]].
  - apply (@ss_proof flat Debug cflat (enc c_merkle_proof pf1)); comp.
  - apply (ml_message _ _ _ _ _ p1 m1); [vm_compute; tauto|exact not_in_src0'].
Qed.
Definition adv112 : prog script := Ask [x00] (fun _ => Done script0).
Lemma adv112_modest : modest 162 1 adv112.
Proof. cbn. split; [lia|intros; exact I]. Qed.
Lemma c112_script_case : exists U, universe 162 U /\ modest 162 1 adv112 /\ made_before 2 made0 /\
  exists f, length f = length U /\ exec (table U f) adv112 = script0 /\ traffic script0 <= 72 /\
    committed (table U f) made0 src0' t0' cflat /\ @follows (table U f) Debug cflat script0 block0 /\
    @misled (table U f) Debug src0' t0' cflat block0.
Proof.
  destruct (all_strings 162) as [U UU]. exists U. split; [exact UU|split; [exact adv112_modest|split; [exact made0_before|]]].
  exists (map flat U). split; [apply flat_list|split; [reflexivity|split; [vm_compute; lia|split; [apply committed0|split; [apply script0_follows|apply script0_misled]]]]].
Qed.
Lemma c112_chosen_case : exists U, universe 162 U /\ modest 162 1 (Ask [x00] (fun _ => Done (src0', @None N, script0))) /\
  exists f, length f = length U /\ valid_source src0' /\ traffic script0 <= 72 /\ try_commit src0' None = Ret (Ok t0') /\ mt_depth t0' <= 2 /\
    @tree_commit_id (table U f) Debug t0' = Ret cflat /\ @follows (table U f) Debug cflat script0 block0 /\
    @misled (table U f) Debug src0' t0' cflat block0.
Proof.
  destruct (all_strings 162) as [U UU]. exists U. split; [exact UU|split; [cbn; split; [lia|intros; exact I]|]].
  exists (map flat U). split; [apply flat_list|split; [exact src0'_valid|split; [vm_compute; lia|split; [comp|split; [vm_compute; lia|split; [|split; [apply script0_follows|apply script0_misled]]]]]]].
  rewrite (c85_tree flat) by (first [vm_compute; lia|apply flat_agree]). comp.
Qed.
(** Two messages at one place *)
Definition bx2 : merkle_block := Eval vm_compute in match @block_with pf1 p1 m2 with Ret (Ok b) => b | _ => b0 end.
Definition tx1 : ptree := Eval vm_compute in path_tree (mp_path pf1) (mp_pos pf1) p1 m1.
Definition tx2 : ptree := Eval vm_compute in path_tree (mp_path pf1) (mp_pos pf1) p1 m2.
Lemma bx1_tree : block_tree bx1 tx1.
Proof. split; [vm_compute; lia|split; [reflexivity|split; [comp|vm_compute; repeat split; lia]]]. Qed.
Lemma bx2_tree : block_tree bx2 tx2.
Proof. split; [vm_compute; lia|split; [reflexivity|split; [comp|vm_compute; repeat split; lia]]]. Qed.
Lemma c112_two_case : exists U, universe 162 U /\
  modest 162 1 (Ask [x00] (fun _ => Done (ScProof (enc c_merkle_proof pf1) p1 m1, ScProof (enc c_merkle_proof pf1) p1 m2))) /\
  exists f, length f = length U /\ traffic (ScProof (enc c_merkle_proof pf1) p1 m1) = 72 /\
    @follows (table U f) Debug cflat (ScProof (enc c_merkle_proof pf1) p1 m1) bx1 /\
    @follows (table U f) Debug cflat (ScProof (enc c_merkle_proof pf1) p1 m2) bx2 /\
    @at_odds (table U f) Debug cflat bx1 bx2.
Proof.
  destruct (all_strings 162) as [U UU]. exists U. split; [exact UU|split; [cbn; split; [lia|intros; exact I]|]].
  exists (map flat U). split; [apply flat_list|split; [comp|split; [|split]]].
  - eapply fo_proof; [comp| |comp]. rewrite (c85_proof flat) by apply flat_agree. comp.
  - eapply fo_proof; [comp| |comp]. rewrite (c85_proof flat) by apply flat_agree. comp.
  - apply od_merge. intros b' n. unfold merge_reveal.
    rewrite (c85_block flat _ Debug bx1 tx1 bx1_tree) by apply flat_agree.
    rewrite (c85_block flat _ Debug bx2 tx2 bx2_tree) by apply flat_agree. vm_compute. discriminate.
Qed.
Lemma c112_numbers_case : modest 162 1 adv112 /\ made_before 16 made0 /\ (N.of_nat 1 <= 2 ^ 100)%N /\
  (N.of_nat (traffic script0) <= 2 ^ 50)%N /\ (N.of_nat (length made0) <= 2 ^ 20)%N.
Proof.
  split; [exact adv112_modest|split; [|split; [vm_compute; discriminate|split; vm_compute; discriminate]]].
  intros src rng I. destruct (made0_before src rng I) as (V & t & E & L). split; [exact V|]. exists t. split; [exact E|lia].
Qed.
