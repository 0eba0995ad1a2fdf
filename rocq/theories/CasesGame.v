(** Cases for the theorems about adversaries: small adversaries, and hash functions for which they win. *)
From Verif Require Import Base BaseFacts OrdMap Strict Merkle MpcAtoms MpcTree MpcBlock.
From Verif Require Import SpecHash SpecTree SpecMerkle SpecFull SpecValid SpecFind SpecQuery SpecGame.
From Verif Require Import TheoremsMpc CasesMpc CasesMisc CasesMore CasesExt TheoremsQuery TheoremsGame.
Local Open Scope nat_scope.

Lemma flat_table U s : table U (map flat U) s = flat s.
Proof. induction U as [|u U IH]; [reflexivity|]. cbn [map table]. destruct (bytes_eqb u s); [reflexivity|exact IH]. Qed.
Lemma flat_agree U L : agree flat (table U (map flat U)) L.
Proof. intros s _. apply flat_table. Qed.
Lemma flat_list (U : list (list byte)) : length (map flat U) = length U.
Proof. apply map_length. Qed.

(** Asks one question and shows the same proof for two messages. *)
Definition adv1 : prog (merkle_proof * bytes32 * merkle_proof * bytes32 * bytes32) :=
  Ask [x00] (fun _ => Done (pf1, m1, pf1, m2, p1)).
Lemma c92_birthday_case : exists U, universe 3 U /\
  modest 3 2 (Ask [x00] (fun a => Ask (if b32_eqb a (b32_fill x00) then [x01] else [x00; x00]) Done)) /\
  @collision_in flat (asked flat (Ask [x00] (fun a => Ask (if b32_eqb a (b32_fill x00) then [x01] else [x00; x00]) Done))).
Proof.
  destruct (all_strings 3) as [U UU]. exists U. split; [exact UU|split].
  - cbn. split; [lia|]. intros a. split; [destruct (b32_eqb _ _); cbn; lia|intros; exact I].
  - exists [x00], [x01]. split; [left; reflexivity|split; [right; left; comp|split; [discriminate|reflexivity]]].
Qed.
Lemma c92_two_messages_case : exists U, universe 162 U /\ modest 162 1 adv1 /\
  exists f, length f = length U /\ valid_proof pf1 /\ m1 <> m2 /\ exec (table U f) adv1 = (pf1, m1, pf1, m2, p1) /\
    @convolve (table U f) Debug pf1 p1 m1 = Ret (Ok cflat) /\ @convolve (table U f) Debug pf1 p1 m2 = Ret (Ok cflat).
Proof.
  destruct (all_strings 162) as [U UU]. exists U. split; [exact UU|split; [|exists (map flat U); split; [apply flat_list|]]].
  - cbn. split; [lia|intros; exact I].
  - destruct c60_one_proof_case as (V & D & E1 & E2 & _). split; [exact V|split; [exact D|split]].
    + reflexivity.
    + split; rewrite (c85_proof flat) by apply flat_agree; comp.
Qed.
Lemma c92_numbers_case : modest 162 1 adv1 /\ (N.of_nat 1 <= 2 ^ 100)%N.
Proof. split; [cbn; split; [lia|intros; exact I]|vm_compute; discriminate]. Qed.

(** Claims a message which was not committed to. *)
Definition adv2 : prog (multi_source * option N * merkle_proof * bytes32 * bytes32) :=
  Ask [x00] (fun _ => Done (src0, None, pf1, p1, m2)).
Lemma c92_forgery_case : exists U, universe 162 U /\ modest 162 1 adv2 /\
  exists f, length f = length U /\ valid_source src0 /\ ~ In (p1, m2) (ms_messages src0) /\
    try_commit src0 None = Ret (Ok t0) /\ mt_depth t0 <= 2 /\
    @tree_commit_id (table U f) Debug t0 = Ret cflat /\ @convolve (table U f) Debug pf1 p1 m2 = Ret (Ok cflat).
Proof.
  destruct (all_strings 162) as [U UU]. exists U. split; [exact UU|split; [|exists (map flat U); split; [apply flat_list|]]].
  - cbn. split; [lia|intros; exact I].
  - split; [exact src0_valid|split; [|split; [comp|split; [vm_compute; lia|split]]]].
    + intros I. vm_compute in I. repeat (destruct I as [I|I]; [discriminate|]). destruct I.
    + rewrite (c85_tree flat) by (first [vm_compute; lia|apply flat_agree]). comp.
    + rewrite (c85_proof flat) by apply flat_agree. comp.
Qed.
Lemma c92_two_trees_case : exists U, universe 162 U /\
  modest 162 0 (Done (src0, @None N, (src0', @None N))) /\
  exists f, length f = length U /\ ms_messages src0 <> ms_messages src0' /\ valid_source src0 /\ valid_source src0' /\
    try_commit src0 None = Ret (Ok t0) /\ try_commit src0' None = Ret (Ok t0') /\ mt_depth t0 <= 2 /\ mt_depth t0' <= 2 /\
    @tree_commit_id (table U f) Debug t0 = Ret cflat /\ @tree_commit_id (table U f) Debug t0' = Ret cflat.
Proof.
  destruct (all_strings 162) as [U UU]. exists U. split; [exact UU|split; [exact I|exists (map flat U); split; [apply flat_list|]]].
  split; [vm_compute; discriminate|]. split; [exact src0_valid|split; [vsrc|]].
  split; [comp|split; [comp|split; [vm_compute; lia|split; [vm_compute; lia|]]]].
  split; rewrite (c85_tree flat) by (first [vm_compute; lia|apply flat_agree]); comp.
Qed.
Lemma c92_two_lists_case : exists U, universe 162 U /\ modest 162 0 (Done ([p1; p2], [p3; p1; p2])) /\
  exists f, length f = length U /\
    @merklize (table U f) [p1; p2] = Ret cflat /\ @merklize (table U f) [p3; p1; p2] = Ret cflat.
Proof.
  destruct (all_strings 162) as [U UU]. exists U. split; [exact UU|split; [exact I|exists (map flat U); split; [apply flat_list|]]].
  split.
  - erewrite (c85_merklize flat); [comp| |apply flat_agree].
    apply (@hashed_tree flat [p1; p2] _ ltac:(discriminate) (halves_splits 2 [p1; p2] (le_n 2))).
  - erewrite (c85_merklize flat); [comp| |apply flat_agree].
    apply (@hashed_tree flat [p3; p1; p2] _ ltac:(discriminate) (halves_splits 3 [p3; p1; p2] (le_n 3))).
Qed.
Lemma c92_meaning_case : exists U, universe 2 U /\ ~ rare U (fun _ => True) 1 2 /\ rare U (fun _ => False) 0 1.
Proof.
  destruct (c92_meaning 2) as [[U UU] [R _]]. exists U. split; [exact UU|split].
  - intros X. apply (R U UU) in X. lia.
  - intros B _ HB. destruct B as [|f B]; [cbn; lia|]. destruct (HB f (or_introl eq_refl)) as [_ []].
Qed.
