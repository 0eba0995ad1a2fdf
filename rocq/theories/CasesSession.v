(** Concrete cases meeting the hypotheses of the theorems of TheoremsSession.v. *)
From Coq Require Import String.
From Verif Require Import Base BaseFacts OrdMap Strict Merkle MpcAtoms MpcTree MpcBlock Digest Engine Dumb.
From Verif Require Import SpecHash SpecTree SpecFull SpecLocal SpecValid SpecCommit SpecDerived SpecBlock SpecCodec SpecEngine SpecSession.
From Verif Require Import TheoremsMpc TheoremsBlock TheoremsMisc TheoremsMore TheoremsExt TheoremsAdv TheoremsSession.
From Verif Require Import CasesMpc CasesMisc CasesMore CasesExt CasesAdv CasesLocal.
Local Open Scope nat_scope.

(** A proof of [p1] received first; then a block showing [p3] is merged in; then the proof of [p1] for another
    message, which is refused and changes nothing. *)
Definition bx1 : merkle_block := Eval vm_compute in
  match @block_with pf1 p1 m1 with Ret (Ok b) => b | _ => b0 end.
Lemma session1 : @session toy Debug c0 (@proof_pre toy pf1 p1 m1) bx1.
Proof. apply (@ss_proof toy Debug c0 (enc c_merkle_proof pf1)); comp. Qed.
Lemma session13 : @session toy Debug c0 (@proof_pre toy pf1 p1 m1 ++ @pcommit_pre toy 2 0 pt3) b13.
Proof.
  apply (@ss_feed toy Debug c0 _ bx1 (enc c_merkle_block b3) b3 pt3 b13 (Ok 4%N)); [exact session1|comp|exact b3_tree|comp].
Qed.
Lemma session_refused : exists e, @session toy Debug c0 ((@proof_pre toy pf1 p1 m1 ++ @pcommit_pre toy 2 0 pt3) ++ @proof_pre toy pf1 p1 m2) b13 /\
  @merge_reveal_path toy Debug b13 pf1 p1 m2 = Ret (b13, Err e).
Proof.
  assert (X : exists e, @merge_reveal_path toy Debug b13 pf1 p1 m2 = Ret (b13, Err e)) by (eexists; comp).
  destruct X as [e X]. exists e. split; [|exact X].
  apply (@ss_path toy Debug c0 _ b13 (enc c_merkle_proof pf1) pf1 p1 m2 b13 (Err e)); [exact session13|comp|exact X].
Qed.

Lemma c78_truth_case : valid_source src0 /\ try_commit src0 None = Ret (Ok t0) /\ @tree_commit_id toy Debug t0 = Ret c0 /\
  @session toy Debug c0 (@proof_pre toy pf1 p1 m1 ++ @pcommit_pre toy 2 0 pt3) b13 /\
  known_leaves (mb_cross_section b13) = [(p1, m1); (p3, m1)].
Proof. split; [exact src0_valid|split; [comp|split; [comp|split; [exact session13|comp]]]]. Qed.
Lemma c78_operations_case : valid_source src0 /\ try_commit src0 None = Ret (Ok t0) /\ @tree_commit_id toy Debug t0 = Ret c0 /\
  @session toy Debug c0 (@proof_pre toy pf1 p1 m1) bx1 /\
  (exists e, @session toy Debug c0 ((@proof_pre toy pf1 p1 m1 ++ @pcommit_pre toy 2 0 pt3) ++ @proof_pre toy pf1 p1 m2) b13 /\
     @merge_reveal_path toy Debug b13 pf1 p1 m2 = Ret (b13, Err e)) /\
  @merge_reveal toy Debug bx1 b13 = Ret (b13, Ok 4%N).
Proof. split; [exact src0_valid|split; [comp|split; [comp|split; [exact session1|split; [exact session_refused|comp]]]]]. Qed.
Lemma c78_disclosure_case : valid_source src0 /\ try_commit src0 None = Ret (Ok t0) /\ @tree_commit_id toy Debug t0 = Ret c0 /\
  @session toy Debug c0 (@proof_pre toy pf1 p1 m1 ++ @pcommit_pre toy 2 0 pt3) b13 /\
  exists n, @conceal_except toy Debug b13 [p1] = Ret (b1, Ok n) /\ @conceal_except toy Debug b0 [p1] = Ret (b1, Ok 3%N) /\ n <> 3%N.
Proof.
  split; [exact src0_valid|split; [comp|split; [comp|split; [exact session13|]]]].
  eexists. split; [comp|split; [comp|discriminate]].
Qed.
Lemma c78_honest_case : valid_source src0 /\ try_commit src0 None = Ret (Ok t0) /\ @tree_commit_id toy Debug t0 = Ret c0 /\
  @derived toy Debug t0 b1.
Proof. split; [exact src0_valid|split; [comp|split; [comp|exact b1_derived]]]. Qed.

Lemma c79_dumb_case : enc c_merkle_block dumb_block = [x00; x01; x00; x00; x01; x00; x00; x00; x00; x00] ++ b32 zero32 ++ x01 :: le 8 8845 /\
  dec c_merkle_block (enc c_merkle_block dumb_block) = Some (dumb_block, []) /\
  dec c_merkle_tree (enc c_merkle_tree dumb_tree) = Some (dumb_tree, []) /\
  @conceal_except toy Debug dumb_block [] = Ret (MBlock Sha256t 1 0 [ConcealedNode 0 zero32] None, Ok 0%N).
Proof. split; [comp|split; [comp|split; comp]]. Qed.
Lemma c79_default_proof_case : valid_source (MultiSource Sha256t 0 [(p1, m1)] (Some 7%N)) /\
  exists t, try_commit (MultiSource Sha256t 0 [(p1, m1)] (Some 7%N)) None = Ret (Ok t).
Proof. split; [vsrc|]. eexists. comp. Qed.
Definition pair_fields (v : N * bytes32) : list field := [FSerialized u8t (fst v); FHash idt (snd v)].
Lemma c79_fields_case :
  Forall2 (fun f g => forall s, step_for f s -> step_for g s) (pair_fields (0%N, zero32)) (pair_fields (5%N, p1)) /\
  let I := @CommitEncode _ (str "tag") (SType "Test" (Some "Id"%string)) (fun md v e => @run toy md (pair_fields v) e) in
  exists l e, @commitment_layout toy _ Debug I (0%N, zero32) = Ret l /\ @commit toy _ Debug I (5%N, p1) = Ret e /\ length (cl_fields l) = 2.
Proof.
  split; [repeat constructor; intros s X; exact X|]. cbv zeta. eexists. eexists. split; [comp|split; [comp|reflexivity]].
Qed.
Lemma c79_derived_case : exists l e, @commitment_layout toy _ Debug (@ce_block toy) dumb_block = Ret l /\
  @commit toy _ Debug (@ce_block toy) b1 = Ret e /\ cl_fields l = [StConcealed (Fqn "CommitVerify" "MerkleConcealed")].
Proof. eexists. eexists. split; [comp|split; [comp|reflexivity]]. Qed.
Lemma c79_option_refuted_case : has_fqn (ty u8t) (Fqn (st_lib (ty u8t)) "U8") /\ not_reserved_type (ty u8t) /\
  enc (ty_codec u8t) 0%N = [x00].
Proof. split; [comp|split; [split; discriminate|comp]]. Qed.
