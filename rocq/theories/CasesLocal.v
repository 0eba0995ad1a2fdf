(** Concrete cases meeting the hypotheses of the theorems of TheoremsLocal.v. *)
From Coq Require Import String.
From Verif Require Import Base BaseFacts OrdMap Strict Merkle MpcAtoms MpcTree MpcBlock Seals.
From Verif Require Import SpecHash SpecTree SpecFull SpecLocal SpecValid SpecCommit SpecDerived SpecBlock SpecCodec SpecMerkle.
From Verif Require Import StrictProofs TheoremsMpc TheoremsBlock TheoremsMisc TheoremsMore TheoremsExt TheoremsAdv TheoremsLocal.
From Verif Require Import CasesMpc CasesMisc CasesMore CasesExt CasesAdv.
Local Open Scope nat_scope.

(** [src0] with another message for [p1] and the same entropy *)
Definition srcx : multi_source := MultiSource Sha256t 2 [(p1, m2); (p2, m2); (p3, m1)] (Some 7%N).
Definition tx : merkle_tree :=
  MTree Sha256t 2 7 0 [(p1, m2); (p2, m2); (p3, m1)] [(1%N, (p1, m2)); (2%N, (p2, m2)); (3%N, (p3, m1))].
Lemma srcx_valid : valid_source srcx. Proof. vsrc. Qed.
Lemma src0x : differ_at src0 srcx p1.
Proof.
  split; [reflexivity|split; [reflexivity|split; [reflexivity|]]]. intros p m N. cbn.
  split; (intros [E|[E|[E|[]]]]; [injection E as E _; congruence|right; left; exact E|right; right; left; exact E]).
Qed.

Lemma c72_contents_case : valid_source src0 /\ try_commit src0 None = Ret (Ok t0) /\ @derived toy Debug t0 (@block_of_tree toy t0) /\
  In (p2, m2) (known_leaves (mb_cross_section (@block_of_tree toy t0))) /\
  @tree_aside toy t0 2 = mp_path pf2 /\ length (mp_path pf2) = 2.
Proof. split; [exact src0_valid|split; [comp|split; [constructor|split; [vm_compute; tauto|split; comp]]]]. Qed.
Lemma c72_own_case : valid_source src0 /\ valid_source srcx /\ differ_at src0 srcx p1 /\
  try_commit src0 None = Ret (Ok t0) /\ try_commit srcx None = Ret (Ok tx) /\ mt_entropy t0 = mt_entropy tx /\
  In (p1, m1) (ms_messages src0) /\ In (p1, m2) (ms_messages srcx) /\
  @to_merkle_proof toy Debug (@block_of_tree toy t0) p1 = Ret (Ok pf1) /\
  @to_merkle_proof toy Debug (@block_of_tree toy tx) p1 = Ret (Ok pf1).
Proof.
  split; [exact src0_valid|split; [exact srcx_valid|split; [exact src0x|split; [comp|split; [comp|split; [comp|]]]]]].
  split; [cbn; tauto|split; [cbn; tauto|split; comp]].
Qed.
(** [p1] sits at position 1 and [p2] at position 2: they part at the root, the second hash of the proof stays. *)
Lemma c72_other_case : valid_source src0 /\ valid_source srcx /\ differ_at src0 srcx p1 /\
  try_commit src0 None = Ret (Ok t0) /\ try_commit srcx None = Ret (Ok tx) /\ mt_entropy t0 = mt_entropy tx /\
  In (p1, m1) (ms_messages src0) /\ In (p1, m2) (ms_messages srcx) /\ m1 <> m2 /\ p2 <> p1 /\ In (p2, m2) (ms_messages src0) /\
  part_at 2 2 1 0 /\
  exists a b c, a <> b /\ @to_merkle_proof toy Debug (@block_of_tree toy t0) p2 = Ret (Ok (MProof Sha256t 2 0 [a; c])) /\
    @to_merkle_proof toy Debug (@block_of_tree toy tx) p2 = Ret (Ok (MProof Sha256t 2 0 [b; c])).
Proof.
  split; [exact src0_valid|split; [exact srcx_valid|split; [exact src0x|split; [comp|split; [comp|split; [comp|]]]]]].
  split; [cbn; tauto|split; [cbn; tauto|split; [discriminate|split; [discriminate|split; [cbn; tauto|]]]]].
  split; [split; [lia|split; [comp|vm_compute; discriminate]]|].
  eexists. eexists. eexists. split; [|split; comp]. vm_compute. discriminate.
Qed.

Lemma c73_proof_bytes_case : exists bs, dec c_merkle_proof bs = Some (pf1, []) /\ length bs = 72 /\
  @convolve toy Debug pf1 p1 m1 = Ret (Ok c0) /\
  dec c_merkle_proof (bs ++ [x00]) = Some (pf1, [x00]).
Proof. exists (enc c_merkle_proof pf1). split; [comp|split; [comp|split; comp]]. Qed.
Lemma c73_block_bytes_case : exists bs, dec c_merkle_block bs = Some (b1, []) /\ block_tree b1 pt1 /\ pmaximal pt1 /\
  @block_commit_id toy Debug b1 = Ret c0.
Proof.
  exists (enc c_merkle_block b1). split; [comp|split; [exact b1_tree|split; [|comp]]].
  cbn. repeat split; try (intros [X Y]; discriminate X || discriminate Y); auto.
Qed.

(** Depth 2 and cofactor 1: three usable positions *)
Lemma c74_even_case : 2 <= 31 /\ (2 < N.max 1 (2 ^ N.of_nat 2 - 1))%N /\
  protocol_id_pos (b32_of_N 5) 1 2 = 2%N /\ protocol_id_pos (b32_of_N 6) 1 2 = 0%N.
Proof. split; [lia|split; [reflexivity|split; comp]]. Qed.
Lemma c74_unused_case : 3 <= 31 /\ (5 < 2 ^ N.of_nat 3)%N /\ protocol_id_pos (b32_of_N 8) 5 3 = 2%N.
Proof. split; [lia|split; [reflexivity|comp]]. Qed.
(** [p1] and [p5] collide unless the cofactor is changed: with cofactor 1 the last of four positions stays free. *)
Lemma c74_unused_slots_case : exists src t, valid_source src /\ try_commit src None = Ret (Ok t) /\
  mt_cofactor t = 1%N /\ (2 ^ N.of_nat (mt_depth t) - mt_cofactor t <= 3)%N /\ om_get N.ltb 3%N (mt_map t) = None /\
  length (mt_map t) = 2.
Proof.
  exists (MultiSource Sha256t 2 [(p1, m1); (p5, m2)] (Some 7%N)). eexists. split; [vsrc|]. split; [comp|].
  split; [comp|split; [vm_compute; discriminate|split; comp]].
Qed.
Lemma c74_low_bytes_case : let p := b32_of_N 7 in let q := b32_of_N (7 + 2 ^ 200) in
  firstn 4 (b32 p) = firstn 4 (b32 q) /\ p <> q /\ protocol_id_pos p 0 5 = 7%N /\ protocol_id_pos q 0 5 = 7%N /\
  protocol_id_pos p 1 5 <> protocol_id_pos q 1 5.
Proof. cbv zeta. split; [comp|split; [vm_compute; discriminate|split; [comp|split; [comp|vm_compute; discriminate]]]]. Qed.

(** A frontier reaching below the declared depth: it has a commitment, but cannot be merged even with itself. *)
Definition ptd : ptree := PBr (PLeaf p1 m1) (PBr (PConc h2) (PConc h23)).
Definition bd : merkle_block := MBlock Sha256t 1 0 (flatten 0 ptd) None.
Lemma c75_frontiers_case :
  (valid_block b1 /\ valid_block b3 /\ mb_cross_section b1 = flatten 0 pt1 /\ pwf_loose (mb_depth b1) 0 pt1 /\
   mb_cross_section b3 = flatten 0 pt3 /\ pwf_loose (mb_depth b3) 0 pt3 /\
   @block_commit_id toy Debug b1 = Ret c0 /\ @block_commit_id toy Debug b3 = Ret c0 /\ exists n, @merge_reveal toy Debug b1 b3 = Ret (b13, Ok n)) /\
  (valid_block bd /\ mb_cross_section bd = flatten 0 ptd /\ pwf_loose (mb_depth bd) 0 ptd /\
   exists c p, @block_commit_id toy Debug bd = Ret c /\ @merge_reveal toy Debug bd bd = Panic p).
Proof.
  split.
  - split; [exact b1_valid|split; [exact b3_valid|split; [comp|split; [cbn; lia|split; [comp|split; [cbn; lia|]]]]]].
    split; [comp|split; [comp|eexists; comp]].
  - split; [repeat split; cbn; try lia; repeat constructor; cbn; lia|]. split; [comp|split; [cbn; lia|]].
    eexists. eexists. split; comp.
Qed.
Lemma c75_debug_case : valid_block b1 /\ valid_block b3 /\ wf_block b1 /\ wf_block b3 /\
  @block_commit_id toy Debug b1 = Ret c0 /\ @block_commit_id toy Debug b3 = Ret c0.
Proof.
  split; [exact b1_valid|split; [exact b3_valid|split; [exact b1_wf|split; [|split; comp]]]].
  exists pt3. split; [cbn; lia|split; [comp|split; [comp|cbn; lia]]].
Qed.
Lemma c75_refusal_case : @block_commit_id toy Debug b0 = Ret c0 /\ @block_commit_id toy Debug b0' = Ret c0' /\ c0 <> c0' /\
  @merge_reveal toy Debug b0 b0' = Ret (b0, Err (UnrelatedBlocks c0 c0')).
Proof. split; [comp|split; [comp|split; [discriminate|comp]]]. Qed.

Lemma c76_lawful_case : lawful (c_le 1) (fun v => (v < 256 ^ N.of_nat 1)%N) /\ lawful c_merkle_proof valid_proof /\
  exists bs, dec (c_seal_witness (c_le 1) c_merkle_proof) (x05 :: bs) = Some (witness_new 5%N pf1, []).
Proof. split; [exact (c_le_lawful 1)|split; [apply c33_roundtrip|]]. exists (enc c_merkle_proof pf1). comp. Qed.
(** The published witness of [mpc_protocol] written as its commitment alone *)
Definition pub_protocol : seal_protocol nat bytes32 bytes32 merkle_proof bytes32 bytes32 unit unit :=
  SealProtocol (fun _ _ _ => true)
    (fun pf m => match @convolve toy Debug pf p1 m with Ret (Ok c) => Ok c | _ => Err tt end) (fun p => p)
    (fun pub p => if b32_eqb pub p then Ok tt else Err tt).
Lemma c76_layout_case : enc (c_seal_witness (c_le 1) c_b32) (witness_new 5%N p1) = x05 :: b32 p1.
Proof. comp. Qed.
Lemma c76_one_witness_case : exists bs,
  lawful c_b32 (fun _ => True) /\
  (forall w x c, sl_convolve pub_protocol w x = Ok c -> @convolve toy Debug w p1 x = Ret (Ok c)) /\
  (forall p q v w, sl_verify_commitment pub_protocol c0 p = Ok v -> sl_verify_commitment pub_protocol c0 q = Ok w -> p = q) /\
  dec (c_seal_witness c_b32 c_merkle_proof) bs = Some (witness_new c0 pf1, []) /\
  verify_seals_closing pub_protocol (witness_new c0 pf1) [1; 2] m1 = Ok tt.
Proof.
  exists (enc (c_seal_witness c_b32 c_merkle_proof) (c0, pf1)). split; [exact c_b32_lawful|]. split; [|split; [|split; comp]].
  - intros w x c E. unfold pub_protocol, sl_convolve in E. destruct (@convolve toy Debug w p1 x) as [[y|y]|y]; try discriminate E. injection E as ->. reflexivity.
  - intros p q v w E F. unfold pub_protocol, sl_verify_commitment in E, F. destruct (b32_eqb c0 p) eqn:E1; [|discriminate E]. destruct (b32_eqb c0 q) eqn:E2; [|discriminate F].
    apply b32_eqb_eq in E1. apply b32_eqb_eq in E2. congruence.
Qed.
Definition show (n : nat) : string := match n with 4 => "four" | _ => "other" end.
Lemma c76_report_case :
  verify_seals_closing list_protocol (witness_new ([1; 2; 3], m1) tt) [1; 4; 5] m1 = Err (SeNotIncluded 4 [1; 2; 3]) /\
  seal_error_text show (fun _ => "w"%string) (fun _ : unit => "pub"%string) (fun e : Empty_set => match e with end)
    (SeNotIncluded 4 [1; 2; 3]) = "seal four is not included in the witness w"%string /\
  verify_seals_closing list_protocol (witness_new ([1; 2; 3], m1) tt) [1; 3] m2 = Err (SePublished tt) /\
  @seal_error_source nat (list nat) unit Empty_set (SePublished tt) = Some (inl tt).
Proof. split; [comp|split; [comp|split; comp]]. Qed.

Lemma c77_root_case : StrictOrd N.ltb /\ (N.of_nat (length [3; 1; 2; 1]%N) < 2 ^ 32)%N /\
  @merklize_leaves toy N b32_of_N (set_leaves (set_of N.ltb [3; 1; 2; 1]%N)) =
  @merklize toy [b32_of_N 1; b32_of_N 2; b32_of_N 3].
Proof. split; [exact N_ord|split; comp]. Qed.
Lemma c77_order_case : StrictOrd N.ltb /\ (forall x, In x [3; 1; 2; 1]%N <-> In x [1; 2; 3; 3]%N) /\
  set_of N.ltb [3; 1; 2; 1]%N = [1; 2; 3]%N /\
  @merklize_leaves toy N (fun x => b32_of_N x) (vec_leaves [3; 1; 2]%N) <>
  @merklize_leaves toy N (fun x => b32_of_N x) (vec_leaves [1; 2; 3]%N).
Proof.
  split; [exact N_ord|split; [|split; [comp|vm_compute; discriminate]]]. intros x. cbn. tauto.
Qed.
Lemma c77_vector_case : exists L L', (forall a b : bytes32, b32 a = b32 b -> a = b) /\ s_commit_tag <> s_node_tag /\
  let id x := @HASH flat (@s_pre flat s_commit_tag (b32 x)) in
  @merklize_leaves flat _ id (vec_leaves [p1; p2]) = Ret cflat /\ @merklize_leaves flat _ id (vec_leaves [p3]) = Ret cflat /\
  @root_hashed flat (map id [p1; p2]) L /\ @root_hashed flat (map id [p3]) L'.
Proof.
  eexists. eexists. split; [exact b32_inj|split; [discriminate|]]. cbv zeta. split; [comp|split; [comp|]].
  split; [|exact (@hashed_single flat _)].
  apply (@hashed_tree flat _ (TTwo cflat cflat)); [discriminate|]. exact (split_two cflat cflat).
Qed.
Lemma c77_set_case : exists L L', StrictOrd b32_ltb /\ (forall a b : bytes32, b32 a = b32 b -> a = b) /\ s_commit_tag <> s_node_tag /\
  let id x := @HASH flat (@s_pre flat s_commit_tag (b32 x)) in
  @merklize_leaves flat _ id (set_leaves (set_of b32_ltb [p2; p1; p2])) = Ret cflat /\
  @merklize_leaves flat _ id (set_leaves (set_of b32_ltb [p3])) = Ret cflat /\
  @root_hashed flat (map id (set_of b32_ltb [p2; p1; p2])) L /\ @root_hashed flat (map id (set_of b32_ltb [p3])) L'.
Proof.
  eexists. eexists. split; [exact b32_ord|split; [exact b32_inj|split; [discriminate|]]]. cbv zeta. split; [comp|split; [comp|]].
  split; [|exact (@hashed_single flat _)].
  apply (@hashed_tree flat _ (TTwo cflat cflat)); [discriminate|]. exact (split_two cflat cflat).
Qed.
