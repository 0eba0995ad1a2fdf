(** Strict encodings of the MPC structures are lawful (round trip and canonical). *)
From Verif Require Import Base OrdMap Strict Merkle MpcAtoms MpcTree MpcBlock StrictProofs.
From Verif Require Import SpecValid SpecCodec.
Local Open Scope nat_scope.

Lemma c_method_lawful : lawful c_method any.
Proof.
  unfold c_method. eapply c_part_lawful; [exact c_byte_lawful| |].
  - intros a b _ E. destruct a; try discriminate. injection E as <-. split; [reflexivity|exact I].
  - intros []. split; [reflexivity|exact I].
Qed.
Lemma c_branching_lawful : lawful c_branching any.
Proof.
  unfold c_branching. eapply c_part_lawful; [exact c_byte_lawful| |].
  - intros a b _ E. destruct a; try discriminate; injection E as <-; split; try reflexivity; exact I.
  - intros []; (split; [reflexivity|exact I]).
Qed.

Ltac law := first
  [ exact c_method_lawful | exact c_branching_lawful | exact c_u5_lawful | exact c_b32_lawful
  | exact c_byte_lawful | apply c_le_lawful ].

Lemma c_leaf_lawful : lawful c_leaf valid_leaf.
Proof.
  unfold c_leaf. eapply lawful_iff.
  - apply c_iso_lawful.
    + apply c_sum_lawful; [discriminate| |]; (apply c_pair_lawful; law).
    + intros [[p m]|[e i]]; reflexivity.
    + intros [p m|e i]; reflexivity.
  - intros [p m|e i]; cbn; unfold any; tauto.
Qed.

Lemma c_merkle_node_lawful : lawful c_merkle_node valid_node.
Proof.
  unfold c_merkle_node. eapply lawful_iff.
  - apply c_iso_lawful.
    + repeat (apply c_pair_lawful; [law|]). law.
    + intros [b [d [w [x y]]]]; reflexivity.
    + intros [b d w x y]; reflexivity.
  - intros [b d w x y]. unfold any, valid_node. cbn [fst snd mn_depth mn_width].
    change (256 ^ N.of_nat 1)%N with (2 ^ 8)%N. change (256 ^ N.of_nat 32)%N with (2 ^ 256)%N. tauto.
Qed.

Lemma c_merkle_concealed_lawful : lawful c_merkle_concealed valid_concealed.
Proof.
  unfold c_merkle_concealed. eapply lawful_iff.
  - apply c_iso_lawful.
    + repeat (apply c_pair_lawful; [law|]). law.
    + intros [d [c r]]; reflexivity.
    + intros [d c r]; reflexivity.
  - intros [d c r]. unfold any, valid_concealed. cbn [fst snd mc_depth mc_cofactor].
    change (256 ^ N.of_nat 2)%N with (2 ^ 16)%N. tauto.
Qed.

Lemma c_tree_node_lawful : lawful c_tree_node valid_tree_node.
Proof.
  unfold c_tree_node. eapply lawful_iff.
  - apply c_iso_lawful.
    + apply c_sum_lawful; [discriminate| |]; (apply c_pair_lawful; law).
    + intros [[p m]|[e i]]; reflexivity.
    + intros [p m|e i]; reflexivity.
  - intros [p m|e i]; cbn; unfold any; tauto.
Qed.

Lemma c_merkle_block_lawful : lawful c_merkle_block valid_block.
Proof.
  unfold c_merkle_block. eapply lawful_iff.
  - apply c_iso_lawful.
    + repeat (apply c_pair_lawful; [law|]). apply c_pair_lawful.
      * apply c_vec_lawful; [reflexivity|exact c_tree_node_lawful].
      * apply c_option_lawful. law.
    + intros [m [d [c [x e]]]]; reflexivity.
    + intros [m d c x e]; reflexivity.
  - intros [m d c x e]. unfold any, valid_block, vec_valid.
    cbn [fst snd mb_depth mb_cofactor mb_cross_section mb_entropy mb_method].
    change (256 ^ N.of_nat 2)%N with (2 ^ 16)%N. change (256 ^ N.of_nat 8)%N with (2 ^ 64)%N.
    change u32_lim with 4294967296%N. change (2 ^ 32)%N with 4294967296%N.
    destruct e; intuition lia.
Qed.

Lemma c_merkle_proof_lawful : lawful c_merkle_proof valid_proof.
Proof.
  unfold c_merkle_proof. eapply lawful_iff.
  - apply c_iso_lawful.
    + repeat (apply c_pair_lawful; [law|]). apply c_vec_lawful; [reflexivity|law].
    + intros [m [d [c x]]]; reflexivity.
    + intros [m d c x]; reflexivity.
  - intros [m d c x]. unfold any, valid_proof, vec_valid.
    cbn [fst snd mp_method mp_pos mp_cofactor mp_path].
    change (256 ^ N.of_nat 2)%N with (2 ^ 16)%N. change (256 ^ N.of_nat 4)%N with (2 ^ 32)%N.
    assert (F : Forall (fun _ : bytes32 => True) x) by (apply Forall_forall; auto).
    intuition lia.
Qed.

Lemma c_merkle_tree_lawful : lawful c_merkle_tree valid_tree.
Proof.
  unfold c_merkle_tree. eapply lawful_iff.
  - apply c_iso_lawful.
    + repeat (apply c_pair_lawful; [law|]). apply c_pair_lawful.
      * apply c_omap_lawful; [reflexivity|law|law].
      * apply c_omap_lawful; [reflexivity|law|]. apply c_pair_lawful; law.
    + intros [m [d [e [c [x y]]]]]; reflexivity.
    + intros [m d e c x y]; reflexivity.
  - intros [m d e c x y]. unfold any, valid_tree, vec_valid.
    cbn [fst snd mt_method mt_depth mt_cofactor mt_entropy mt_messages mt_map].
    change (256 ^ N.of_nat 2)%N with (2 ^ 16)%N. change (256 ^ N.of_nat 4)%N with (2 ^ 32)%N.
    change (256 ^ N.of_nat 8)%N with (2 ^ 64)%N.
    change u24_max with 16777215%N. change (2 ^ 24)%N with 16777216%N.
    assert (F1 : Forall (fun p : bytes32 * bytes32 => True /\ True) x) by (apply Forall_forall; auto).
    assert (F2 : Forall (fun p : N * (bytes32 * bytes32) => (fst p < 2 ^ 32)%N /\ True /\ True) y <->
                 Forall (fun e => fst e < 2 ^ 32)%N y).
    { rewrite !Forall_forall. split; intros A z Hz; specialize (A z Hz); tauto. }
    rewrite F2. intuition lia.
Qed.
