(** Cases for forgeries of commitments made beforehand: hash functions for which they succeed. *)
From Verif Require Import Base BaseFacts OrdMap Strict Merkle MpcAtoms MpcTree MpcBlock.
From Verif Require Import SpecHash SpecTree SpecMerkle SpecFull SpecValid SpecFind SpecBlock SpecQuery SpecGame SpecTarget.
From Verif Require Import TheoremsMpc CasesMpc CasesMisc CasesMore CasesExt TheoremsQuery TheoremsGame CasesGame TheoremsTarget.
Local Open Scope nat_scope.

Definition made0 : list (multi_source * option N) := [(src0', None); (src0, Some 5%N)].
Lemma made0_before : made_before 2 made0.
Proof.
  intros src rng [I|[I|[]]]; injection I as <- <-.
  - split; [exact src0'_valid|]. exists t0'. split; [comp|vm_compute; lia].
  - split; [exact src0_valid|]. exists t0. split; [comp|vm_compute; lia].
Qed.
Lemma not_in_src0' : ~ In (p1, m1) (ms_messages src0').
Proof. intros I. vm_compute in I. repeat (destruct I as [I|I]; [discriminate|]). destruct I. Qed.
Lemma committed0 U : committed (table U (map flat U)) made0 src0' t0' cflat.
Proof.
  exists None, Debug. split; [left; reflexivity|split; [comp|]].
  rewrite (c85_tree flat) by (first [vm_compute; lia|apply flat_agree]). comp.
Qed.

(** With a hash function which maps everything to one value, the proof, the block and the tree of another source are accepted. *)
Lemma c105_extract_case : valid_source src0' /\ try_commit src0' None = Ret (Ok t0') /\ @tree_commit_id flat Debug t0' = Ret cflat /\
  (valid_proof pf1 /\ @convolve flat Debug pf1 p1 m1 = Ret (Ok cflat) /\ ~ In (p1, m1) (ms_messages src0')) /\
  (valid_block b1 /\ @block_commit_id flat Debug b1 = Ret cflat /\ In (p1, m1) (known_leaves (mb_cross_section b1))) /\
  (valid_source src0 /\ try_commit src0 None = Ret (Ok t0) /\ @tree_commit_id flat Debug t0 = Ret cflat /\ ms_messages src0 <> ms_messages src0').
Proof.
  split; [exact src0'_valid|split; [comp|split; [comp|split; [|split]]]].
  - split; [apply c60_one_proof_case|split; [comp|exact not_in_src0']].
  - split; [exact b1_valid|split; [comp|vm_compute; tauto]].
  - split; [exact src0_valid|split; [comp|split; [comp|vm_compute; discriminate]]].
Qed.
Lemma c105_second_case : exists U, universe 3 U /\ modest 3 1 (Ask [x00] Done) /\
  (forall a, modest 3 1 (Ask (if b32_eqb a (b32_fill x00) then [x01] else [x00; x00]) Done)) /\
  @second_in flat (asked flat (Ask [x00] Done)) (asked flat (Ask [x00] Done) ++
    asked flat (Ask (if b32_eqb (exec flat (Ask [x00] Done)) (b32_fill x00) then [x01] else [x00; x00]) Done)).
Proof.
  destruct (all_strings 3) as [U UU]. exists U. split; [exact UU|split; [|split]].
  - cbn. split; [lia|intros; exact I].
  - intros a. cbn. split; [destruct (b32_eqb _ _); cbn; lia|intros; exact I].
  - exists [x00], [x01]. split; [left; reflexivity|split; [right; left; comp|split; [discriminate|reflexivity]]].
Qed.
(** An adversary who asks one question and claims a message which was not committed to *)
Definition adv105 : prog (merkle_proof * bytes32 * bytes32) := Ask [x00] (fun _ => Done (pf1, p1, m1)).
Lemma adv105_modest : modest 162 1 adv105.
Proof. cbn. split; [lia|intros; exact I]. Qed.
Lemma c105_proof_case : exists U, universe 162 U /\ modest 162 1 adv105 /\ made_before 2 made0 /\
  exists f, length f = length U /\ exec (table U f) adv105 = (pf1, p1, m1) /\ valid_proof pf1 /\
    committed (table U f) made0 src0' t0' cflat /\ @convolve (table U f) Debug pf1 p1 m1 = Ret (Ok cflat) /\ ~ In (p1, m1) (ms_messages src0').
Proof.
  destruct (all_strings 162) as [U UU]. exists U. split; [exact UU|split; [exact adv105_modest|split; [exact made0_before|]]].
  exists (map flat U). split; [apply flat_list|split; [reflexivity|split; [apply c60_one_proof_case|split; [apply committed0|split; [|exact not_in_src0']]]]].
  rewrite (c85_proof flat) by apply flat_agree. comp.
Qed.
Lemma b1_flat U : @block_commit_id (table U (map flat U)) Debug b1 = Ret cflat.
Proof.
  rewrite (c85_block flat _ Debug b1 pt1 b1_tree) by apply flat_agree. comp.
Qed.
Lemma c105_block_case : exists U, universe 162 U /\ modest 162 1 (Ask [x00] (fun _ => Done b1)) /\ made_before 2 made0 /\
  exists f, length f = length U /\ valid_block b1 /\ length (mb_cross_section b1) <= 3 /\
    committed (table U f) made0 src0' t0' cflat /\ @block_commit_id (table U f) Debug b1 = Ret cflat /\
    In (p1, m1) (known_leaves (mb_cross_section b1)) /\ ~ In (p1, m1) (ms_messages src0').
Proof.
  destruct (all_strings 162) as [U UU]. exists U. split; [exact UU|split; [cbn; split; [lia|intros; exact I]|split; [exact made0_before|]]].
  exists (map flat U). split; [apply flat_list|split; [exact b1_valid|split; [vm_compute; lia|split; [apply committed0|split; [apply b1_flat|]]]]].
  split; [vm_compute; tauto|exact not_in_src0'].
Qed.
Lemma c105_tree_case : exists U, universe 162 U /\ modest 162 0 (Done (src0, @None N)) /\ made_before 2 made0 /\
  exists f, length f = length U /\ valid_source src0 /\ try_commit src0 None = Ret (Ok t0) /\ mt_depth t0 <= 2 /\
    committed (table U f) made0 src0' t0' cflat /\ @tree_commit_id (table U f) Debug t0 = Ret cflat /\ ms_messages src0 <> ms_messages src0'.
Proof.
  destruct (all_strings 162) as [U UU]. exists U. split; [exact UU|split; [exact I|split; [exact made0_before|]]].
  exists (map flat U). split; [apply flat_list|split; [exact src0_valid|split; [comp|split; [vm_compute; lia|split; [apply committed0|split]]]]].
  - rewrite (c85_tree flat) by (first [vm_compute; lia|apply flat_agree]). comp.
  - vm_compute. discriminate.
Qed.
Lemma c105_value_case : exists U, universe 162 U /\ modest 162 1 adv105 /\ modest 162 1 (Ask [x00] (fun _ => Done b1)) /\
  modest 162 1 (Ask [x00] (fun _ => Done (src0, @None N))) /\
  exists f, length f = length U /\ In cflat [m1; cflat] /\
    valid_proof pf1 /\ @convolve (table U f) Debug pf1 p1 m1 = Ret (Ok cflat) /\
    valid_block b1 /\ @block_commit_id (table U f) Debug b1 = Ret cflat /\
    valid_source src0 /\ try_commit src0 None = Ret (Ok t0) /\ @tree_commit_id (table U f) Debug t0 = Ret cflat.
Proof.
  destruct (all_strings 162) as [U UU]. exists U. split; [exact UU|split; [exact adv105_modest|split; [|split]]].
  1, 2: cbn; split; [lia|intros; exact I].
  exists (map flat U). split; [apply flat_list|split; [right; left; reflexivity|]].
  split; [apply c60_one_proof_case|split; [rewrite (c85_proof flat) by apply flat_agree; comp|]].
  split; [exact b1_valid|split; [apply b1_flat|split; [exact src0_valid|split; [comp|]]]].
  rewrite (c85_tree flat) by (first [vm_compute; lia|apply flat_agree]). comp.
Qed.
Lemma c105_numbers_case : modest 162 1 adv105 /\ made_before 16 made0 /\ (N.of_nat 1 <= 2 ^ 100)%N /\ (N.of_nat (length made0) <= 2 ^ 20)%N.
Proof.
  split; [exact adv105_modest|split; [|split; vm_compute; discriminate]].
  intros src rng I. destruct (made0_before src rng I) as (V & t & E & L). split; [exact V|]. exists t. split; [exact E|lia].
Qed.
