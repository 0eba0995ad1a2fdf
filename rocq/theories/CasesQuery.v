(** Cases: hash functions which differ and agree on the listed strings. *)
From Verif Require Import Base SpecHash SpecTree SpecFull SpecMerkle SpecCommit SpecValid SpecEngine SpecQuery Engine Digest
  MpcAtoms MpcTree MpcBlock Merkle MpcTreeProofs TheoremsMpc TheoremsQuery CasesMpc CasesMisc.
Local Open Scope nat_scope.

(** Another function than [toy]: it differs on the empty string and on every string of 17 bytes. *)
Definition twin : Hasher := fun s => if (length s =? 0) || (length s =? 17) then b32_fill xff else @HASH toy s.
Lemma twin_other : exists s, @HASH twin s <> @HASH toy s.
Proof. exists []. vm_compute. discriminate. Qed.
Lemma twin_agree L : forallb (fun s => negb ((length s =? 0) || (length s =? 17))) L = true -> agree toy twin L.
Proof.
  intros F s I. rewrite forallb_forall in F. specialize (F s I). unfold HASH at 1, twin.
  destruct (_ || _); [discriminate|reflexivity].
Qed.

Lemma c85_proof_case : agree toy twin (@proof_pre toy pf1 p1 m1) /\ (exists s, @HASH twin s <> @HASH toy s) /\
  @convolve twin Debug pf1 p1 m1 = Ret (Ok c0) /\ @convolve flat Debug pf1 p1 m1 <> Ret (Ok c0).
Proof. split; [apply twin_agree; comp|split; [exact twin_other|split; [comp|vm_compute; discriminate]]]. Qed.
Lemma c85_tree_case : mt_depth t0 <= 31 /\ agree toy twin (@tree_pre toy t0) /\ @tree_commit_id twin Debug t0 = Ret c0 /\
  length (@tree_pre toy t0) = 10.
Proof. split; [vm_compute; lia|split; [apply twin_agree; comp|split; comp]]. Qed.
Lemma c85_merklize_case : exists L, @root_hashed toy [p1; p2; p3] L /\ agree toy twin L /\ length L = 4.
Proof.
  eexists. split; [apply (@hashed_tree toy [p1; p2; p3]); [discriminate|apply splits3]|].
  split; [apply twin_agree; comp|reflexivity].
Qed.
Lemma c85_count_case : length (@proof_pre toy pf1 p1 m1) = 6 /\ length (mp_path pf1) = 2.
Proof. split; comp. Qed.
Lemma c85_needed_case : @convolve toy Debug pf1 p1 m1 = Ret (Ok c0) /\ In s_node_tag (@proof_pre toy pf1 p1 m1) /\
  In (@s_leaf toy p1 m1) (@proof_pre toy pf1 p1 m1).
Proof. split; [comp|split; [left; reflexivity|right; right; right; right; right; left; comp]]. Qed.
Lemma hashed0 : exists L, @fields_hashed toy fields0 L /\ agree toy twin (str "tag" :: @s_pre toy (str "tag") (concat bytes0) :: L) /\
  length L = 4.
Proof.
  eexists. split.
  - unfold fields0. repeat first [apply fh_merkle; [apply (@hashed_tree toy [p1; p2; p3]); [discriminate|apply splits3]|]
                                 |apply fh_other; [intros; discriminate|]|apply fh_nil].
  - split; [apply twin_agree; comp|reflexivity].
Qed.
Lemma c85_engine_case : exists e e' L, @run toy Debug fields0 (@engine_new toy (str "tag")) = Ret e /\
  @run twin Release fields0 (@engine_new twin (str "tag")) = Ret e' /\ Forall2 (@feeds toy) fields0 bytes0 /\
  @fields_hashed toy fields0 L /\ agree toy twin (str "tag" :: @s_pre toy (str "tag") (concat bytes0) :: L).
Proof.
  destruct hashed0 as (L & HL & A & _). eexists. eexists. exists L. split; [vm_compute; reflexivity|].
  split; [vm_compute; reflexivity|]. split; [exact feeds0|split; assumption].
Qed.
Lemma c85_block_case : block_tree b1 pt1 /\ agree toy twin (@pcommit_pre toy (mb_depth b1) (mb_cofactor b1) pt1) /\
  @block_commit_id twin Debug b1 = Ret c0.
Proof. split; [exact b1_tree|split; [apply twin_agree; comp|comp]]. Qed.
