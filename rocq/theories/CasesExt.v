(** Concrete cases meeting the hypotheses of the theorems of TheoremsExt.v. *)
From Verif Require Import Base BaseFacts OrdMap Sha256 Strict Digest Merkle MpcAtoms MpcTree MpcBlock Engine Seals.
From Verif Require Import SpecHash SpecSha SpecTree SpecFull SpecValid SpecCommit SpecDerived SpecBlock SpecEngine SpecMisc.
From Verif Require Import ShaProofs TheoremsMpc TheoremsBlock TheoremsMisc TheoremsMore TheoremsExt CasesMpc CasesMisc CasesMore.
Local Open Scope nat_scope.

(** FIPS 180-4 example: SHA-256 of "abc". *)
Lemma c59_fips_case : exists calls, sha_run (str "abc") calls
  [xba; x78; x16; xbf; x8f; x01; xcf; xea; x41; x41; x40; xde; x5d; xae; x22; x23;
   xb0; x03; x61; xa3; x96; x17; x7a; x9c; xb4; x10; xff; x61; xf2; x00; x15; xad].
Proof. apply c59_fips. comp. Qed.
(** No collision of SHA-256 is known; the hypothesis on lengths holds for what the crate hashes. *)
Lemma c59_reduction_case : Forall short [str "abc"; @s_leaf sha256 p1 m1].
Proof.
  constructor; [reflexivity|constructor; [|constructor]]. unfold short, s_leaf. rewrite s_pre_length. cbn [length].
  rewrite app_length, !b32_length. reflexivity.
Qed.
(** A proof of one message in a tree of depth 0 *)
Definition pf0 : merkle_proof := MProof Sha256t 0 0 [].
Lemma c59_one_message_case : valid_proof pf0 /\
  @convolve sha256 Debug pf0 p1 m1 = @convolve sha256 Release pf0 p1 m1 /\ exists c, @convolve sha256 Debug pf0 p1 m1 = Ret (Ok c).
Proof.
  split; [split; [comp|split; [comp|cbn; lia]]|]. split; [reflexivity|].
  rewrite (@PathProofs.convolve_spec sha256) by (cbn; lia). cbv zeta.
  replace (_ =? _)%N with true; [eexists; reflexivity|]. symmetry. apply N.eqb_eq. comp.
Qed.

Lemma c60_one_proof_case : valid_proof pf1 /\ m1 <> m2 /\
  @convolve flat Debug pf1 p1 m1 = Ret (Ok cflat) /\ @convolve flat Release pf1 p1 m2 = Ret (Ok cflat) /\
  @convolve toy Debug pf1 p1 m1 = Ret (Ok c0).
Proof.
  split; [split; [comp|split; [comp|cbn; lia]]|]. split; [discriminate|]. split; [comp|split; comp].
Qed.
Lemma c60_vouches_case : valid_proof pf1 /\ valid_source src0 /\ try_commit src0 None = Ret (Ok t0) /\
  @convolve toy Debug pf1 p1 m1 = Ret (Ok c0) /\ @tree_commit_id toy Debug t0 = Ret c0 /\
  In (p1, m1) (ms_messages src0) /\ @to_merkle_proof toy Debug (@block_of_tree toy t0) p1 = Ret (Ok pf1).
Proof.
  split; [split; [comp|split; [comp|cbn; lia]]|]. split; [exact src0_valid|split; [comp|split; [comp|split; [comp|]]]].
  split; [cbn; auto|comp].
Qed.

(** [b1] obtained from the whole block, and from the block of [p1] and [p2] *)
Lemma c61_maximal_case : block_tree b1 pt1 /\ pmaximal pt1 /\ @block_commit_id toy Debug b1 = Ret c0 /\
  ~ pmaximal (PBr (PBr (PConc e0) (PLeaf p1 m1)) (PBr (PConc h2) (PConc h2))).
Proof.
  split; [exact b1_tree|split; [|split; [comp|]]].
  - cbn. repeat split; try (intros [X Y]; discriminate X || discriminate Y); auto.
  - cbn. tauto.
Qed.
Definition pt12 : ptree := PBr (PBr (PConc e0) (PLeaf p1 m1)) (PBr (PLeaf p2 m2) (PConc (@phash toy 4 2 (PLeaf p3 m1)))).
Lemma c61_conceal_case : block_tree b0 pt0 /\ block_tree b12 pt12 /\
  well_placed (mb_depth b0) (mb_cofactor b0) pt0 /\ well_placed (mb_depth b12) (mb_cofactor b12) pt12 /\
  @block_commit_id toy Debug b0 = Ret c0 /\ @block_commit_id toy Debug b12 = Ret c0 /\
  @conceal_except toy Debug b0 [p1] = Ret (b1, Ok 3%N) /\ @conceal_except toy Debug b12 [p1] = Ret (b1, Ok 2%N).
Proof.
  assert (W : well_placed 2 0 pt0).
  { intros q p m I. cbn in I. repeat (destruct I as [I|I]; [injection I as <- <- <-; comp|]). destruct I. }
  assert (W' : well_placed 2 0 pt12).
  { intros q p m I. cbn in I. repeat (destruct I as [I|I]; [injection I as <- <- <-; comp|]). destruct I. }
  split; [exact b0_tree|]. split; [split; [cbn; lia|split; [comp|split; [comp|cbn; lia]]]|].
  split; [exact W|split; [exact W'|]]. split; [comp|split; [comp|split; comp]].
Qed.

(** Two messages filling a tree of depth 1 *)
Definition srcf (e : N) : multi_source := MultiSource Sha256t 1 [(p1, m1); (p2, m2)] (Some e).
Definition tf (e : N) : merkle_tree := MTree Sha256t 1 e 0 [(p1, m1); (p2, m2)] [(0%N, (p2, m2)); (1%N, (p1, m1))].
Lemma c62_full_case : valid_source (srcf 7) /\ valid_source (srcf 8) /\
  try_commit (srcf 7) None = Ret (Ok (tf 7)) /\ try_commit (srcf 8) None = Ret (Ok (tf 8)) /\
  N.of_nat (length (ms_messages (srcf 7))) = (2 ^ N.of_nat (mt_depth (tf 7)))%N /\
  @tree_commit_id toy Debug (tf 7) = @tree_commit_id toy Debug (tf 8).
Proof. split; [vsrc|split; [vsrc|split; [comp|split; [comp|split; comp]]]]. Qed.
Definition srcb : multi_source := MultiSource Sha256t 2 [(p1, m1); (p2, m2); (p3, m1)] (Some 8%N).
Definition tb : merkle_tree :=
  MTree Sha256t 2 8 0 [(p1, m1); (p2, m2); (p3, m1)] [(1%N, (p1, m1)); (2%N, (p2, m2)); (3%N, (p3, m1))].
Lemma c62_blinded_case : valid_source src0 /\ valid_source srcb /\
  try_commit src0 None = Ret (Ok t0) /\ try_commit srcb None = Ret (Ok tb) /\
  (N.of_nat (length (ms_messages src0)) < 2 ^ N.of_nat (mt_depth t0))%N /\
  @tree_commit_id toy Debug t0 = Ret c0 /\ @tree_commit_id toy Debug tb <> Ret c0 /\
  @tree_commit_id flat Debug t0 = Ret cflat /\ @tree_commit_id flat Debug tb = Ret cflat.
Proof.
  split; [exact src0_valid|split; [vsrc|split; [comp|split; [comp|split; [comp|split; [comp|split; [vm_compute; discriminate|split; comp]]]]]]].
Qed.
Lemma c62_single_case : exists t, try_commit (MultiSource Sha256t 0 [(p1, m1)] None) (Some 9%N) = Ret (Ok t) /\ mt_depth t = 0.
Proof. eexists. split; [vm_compute; reflexivity|reflexivity]. Qed.

Lemma c63_complete_case : valid_source src0 /\ try_commit src0 None = Ret (Ok t0) /\ @tree_commit_id toy Debug t0 = Ret c0 /\
  (forall w x y, @convolve toy Debug w p1 x = Ret (Ok y) -> sl_convolve mpc_protocol w x = Ok y) /\
  sl_verify_commitment mpc_protocol ([1; 2], c0) c0 = Ok tt /\ In (p1, m1) (ms_messages src0) /\
  @to_merkle_proof toy Debug (@block_of_tree toy t0) p1 = Ret (Ok pf1) /\
  verify_seals_closing mpc_protocol (witness_new ([1; 2], c0) pf1) [1; 2] m1 = Ok tt.
Proof.
  split; [exact src0_valid|split; [comp|split; [comp|split; [|split; [comp|split; [cbn; auto|split; comp]]]]]].
  intros w x y E. cbn [mpc_protocol sl_convolve]. rewrite E. reflexivity.
Qed.
Lemma c63_sound_case : (forall w x y, sl_convolve mpc_protocol w x = Ok y -> @convolve toy Debug w p1 x = Ret (Ok y)) /\
  (forall x v, sl_verify_commitment mpc_protocol ([1; 2], c0) x = Ok v -> x = c0) /\ valid_proof pf1 /\
  verify_seals_closing mpc_protocol (witness_new ([1; 2], c0) pf1) [1; 2] m1 = Ok tt /\
  verify_seals_closing mpc_protocol (witness_new ([1; 2], c0) pf1) [1; 3] m1 = Err (SeNotIncluded 3 [1; 2]).
Proof.
  split; [|split; [|split; [split; [comp|split; [comp|cbn; lia]]|split; comp]]].
  - intros w x y. cbn [mpc_protocol sl_convolve]. destruct (@convolve toy Debug w p1 x) as [[z|z]|z]; congruence.
  - intros x v. cbn [mpc_protocol sl_verify_commitment snd]. destruct (b32_eqb c0 x) eqn:E; [|discriminate].
    intros _. apply b32_eqb_eq in E. congruence.
Qed.

Lemma c64_proof_case : length (enc c_merkle_proof pf1) = 72 /\ length (mp_path pf1) = 2.
Proof. split; comp. Qed.
Lemma c64_block_case : length (enc c_merkle_block b0) = 246 /\ length (enc c_merkle_block b1) = 142.
Proof. split; comp. Qed.
Lemma c64_tree_case : length (enc c_merkle_tree t0) = 414.
Proof. comp. Qed.
Lemma c64_conceal_case : wf_block b0 /\ @conceal_except toy Debug b0 [p1] = Ret (b1, Ok 3%N) /\
  length (enc c_merkle_block b0) = 246 /\ length (enc c_merkle_block b1) = 142.
Proof. split; [exact b0_wf|split; [comp|split; comp]]. Qed.
Lemma c64_extracted_case : valid_source src0 /\ try_commit src0 None = Ret (Ok t0) /\
  @to_merkle_proof toy Debug (@block_of_tree toy t0) p1 = Ret (Ok pf1) /\ length (enc c_merkle_proof pf1) = 72.
Proof. split; [exact src0_valid|split; [comp|split; comp]]. Qed.

Lemma c29_methods_case : mt_depth t1 <= 31 /\ mt_protocol_id_pos t1 p1 = 2%N /\ mb_depth b1 <= 31 /\ mb_protocol_id_pos b1 p3 = 3%N.
Proof. split; [cbn; lia|split; [comp|split; [cbn; lia|comp]]]. Qed.
Lemma c34_finish_layout_case : exists e, @run toy Debug fields0 (@engine_new toy (str "tag")) = Ret e /\
  Forall2 (@feeds toy) fields0 bytes0 /\ snd (finish_layout e) = steps0.
Proof. eexists. split; [vm_compute; reflexivity|split; [exact feeds0|comp]]. Qed.
Lemma c47_set_case : (forall s, In s [1; 3] <-> In s [3; 1; 3]) /\
  verify_seals_closing list_protocol (witness_new ([1; 2; 3], m1) tt) [3; 1; 3] m1 = Ok tt.
Proof. split; [cbn; tauto|comp]. Qed.
Lemma c47_split_case : verify_seals_closing list_protocol (witness_new ([1; 2; 3], m1) tt) ([1] ++ [3]) m1 = Ok tt /\
  verify_seals_closing list_protocol (witness_new ([1; 2; 3], m1) tt) ([1] ++ [4]) m1 = Err (SeNotIncluded 4 [1; 2; 3]).
Proof. split; comp. Qed.
Lemma c48_merged_case : sl_convolve list_protocol = no_witness_convolve /\
  (forall s m p x y, sl_is_included list_protocol s m (p, x) = sl_is_included list_protocol s m (p, y)) /\
  no_witness_merge tt tt = Ok tt.
Proof. split; [reflexivity|split; [intros; reflexivity|reflexivity]]. Qed.
