(** C72-C77: contents of proofs, wire-level uniqueness, distribution of positions, exact merging, seal witnesses,
    merklized sets. *)
From Coq Require Import Sorting.Sorted.
From Verif Require Import Base BaseFacts OrdMap OrdMapFacts SpecHash HashFacts SpecTree SpecFull SpecLocal SpecCommit SpecValid
  SpecDerived MpcAtoms MpcTree MpcBlock TreeFacts ConcealProofs PathProofs MpcTreeProofs DerivedProofs LocalProofs.
From Verif Require Import Strict Merkle Seals SpecCodec SpecBlock SpecMerkle SpecMisc BlockInv StrictProofs MerkleProofs MiscProofs MergeProofs MergeLooseProofs
  TheoremsMpc TheoremsBlock TheoremsMerkle TheoremsMisc TheoremsMore TheoremsExt TheoremsAdv.
Local Open Scope nat_scope.

(** ** C72 *)
Lemma c72_contents : forall (H : Hasher) md src rng t b pid msg
  (valid : valid_source src) (made : try_commit src rng = Ret (Ok t)) (from_tree : derived md t b)
  (revealed : In (pid, msg) (known_leaves (mb_cross_section b))),
  let pos := s_pos pid (mt_cofactor t) (mt_depth t) in
  to_merkle_proof md b pid = Ret (Ok (MProof (ms_method src) pos (mt_cofactor t) (tree_aside t pos))).
Proof.
  intros H md src rng t b pid msg V E D I pos. pose proof (try_commit_good _ _ _ V E) as G.
  rewrite (proof_contents md t b pid msg G (derived_view md t b G D) I).
  pose proof (try_commit_spec src rng (proj1 V) (proj1 (proj2 V))) as T. cbv zeta in T. rewrite E in T.
  destruct T as [_ [_ [-> _]]]. reflexivity.
Qed.

Lemma tree_proof_is {H : Hasher} md src rng t p m :
  valid_source src -> try_commit src rng = Ret (Ok t) -> In (p, m) (ms_messages src) ->
  let pos := s_pos p (mt_cofactor t) (mt_depth t) in
  to_merkle_proof md (block_of_tree t) p = Ret (Ok (MProof (ms_method src) pos (mt_cofactor t) (tree_aside t pos))).
Proof.
  intros V E I pos. eapply c72_contents; [exact V|exact E|constructor|].
  pose proof (try_commit_good _ _ _ V E) as G.
  rewrite block_of_tree_flatten, known_leaves_flatten by exact G. apply tree_full_pleaves; [exact G|].
  pose proof (try_commit_spec src rng (proj1 V) (proj1 (proj2 V))) as T. cbv zeta in T. rewrite E in T.
  destruct T as [_ [_ [_ [-> _]]]]. exact I.
Qed.

Lemma c72_own : forall (H : Hasher) md src src' rng rng' t t' q m m'
  (valid : valid_source src) (valid' : valid_source src') (one_changed : differ_at src src' q)
  (made : try_commit src rng = Ret (Ok t)) (made' : try_commit src' rng' = Ret (Ok t'))
  (same_entropy : mt_entropy t = mt_entropy t')
  (has : In (q, m) (ms_messages src)) (has' : In (q, m') (ms_messages src')),
  exists pf, to_merkle_proof md (block_of_tree t) q = Ret (Ok pf) /\ to_merkle_proof md (block_of_tree t') q = Ret (Ok pf).
Proof.
  intros H md src src' rng rng' t t' q m m' V V' D E E' EE I I'.
  rewrite (tree_proof_is md src rng t q m V E I), (tree_proof_is md src' rng' t' q m' V' E' I').
  pose proof (slots_same _ _ _ _ _ _ _ V V' D E E') as S.
  pose proof D as [EM [ED [EI _]]]. destruct (same_shape _ _ _ _ _ _ V V' ED EI E E') as [QD QC].
  eexists. split; [reflexivity|]. rewrite <- EM, <- QD, <- QC. do 3 f_equal. unfold tree_aside. rewrite <- QD.
  symmetry. apply aside_own.
  - pose proof (pos_spec q (mt_cofactor t) (mt_depth t) (gt_depth _ (try_commit_good _ _ _ V E))). lia.
  - intros i Ni. unfold slot. rewrite <- EE, (S i Ni). reflexivity.
Qed.

Lemma c72_other : forall (H : Hasher) md src src' rng rng' t t' p x q m m'
  (valid : valid_source src) (valid' : valid_source src') (one_changed : differ_at src src' q)
  (made : try_commit src rng = Ret (Ok t)) (made' : try_commit src' rng' = Ret (Ok t'))
  (same_entropy : mt_entropy t = mt_entropy t')
  (has : In (q, m) (ms_messages src)) (has' : In (q, m') (ms_messages src')) (changed : m <> m')
  (another : p <> q) (member : In (p, x) (ms_messages src)),
  exists pf pf' l,
    to_merkle_proof md (block_of_tree t) p = Ret (Ok pf) /\ to_merkle_proof md (block_of_tree t') p = Ret (Ok pf') /\
    mp_method pf = mp_method pf' /\ mp_pos pf = mp_pos pf' /\ mp_cofactor pf = mp_cofactor pf' /\
    length (mp_path pf) = length (mp_path pf') /\
    part_at (length (mp_path pf)) (mp_pos pf) (s_pos q (mp_cofactor pf) (length (mp_path pf))) l /\
    (forall l', l' <> l -> nth_error (mp_path pf) l' = nth_error (mp_path pf') l') /\
    (nth_error (mp_path pf) l <> nth_error (mp_path pf') l \/ collision_in (tree_pre t ++ tree_pre t')).
Proof.
  intros H md src src' rng rng' t t' p x q m m' V V' D E E' EE I I' Nm Np Ip.
  pose proof D as [EM [ED [EI DD]]]. destruct (same_shape _ _ _ _ _ _ V V' ED EI E E') as [QD QC].
  pose proof (try_commit_good _ _ _ V E) as G. pose proof (try_commit_good _ _ _ V' E') as G'.
  assert (Ms : mt_messages t = ms_messages src).
  { pose proof (try_commit_spec src rng (proj1 V) (proj1 (proj2 V))) as T. cbv zeta in T. rewrite E in T. tauto. }
  assert (Ms' : mt_messages t' = ms_messages src').
  { pose proof (try_commit_spec src' rng' (proj1 V') (proj1 (proj2 V'))) as T. cbv zeta in T. rewrite E' in T. tauto. }
  pose proof (slots_same _ _ _ _ _ _ _ V V' D E E') as S.
  set (D0 := mt_depth t). set (c0 := mt_cofactor t). fold D0 in S. fold c0 in S.
  set (i := s_pos p c0 D0). set (j := s_pos q c0 D0). fold j in S.
  assert (Li : (i < 2 ^ N.of_nat D0)%N) by (apply pos_spec, gt_depth, G).
  assert (Lj : (j < 2 ^ N.of_nat D0)%N) by (apply pos_spec, gt_depth, G).
  assert (Nij : i <> j).
  { intros Q. assert (M1 : In (i, (p, x)) (mt_map t)) by (apply (gt_map _ G); rewrite Ms; auto).
    assert (M2 : In (j, (q, m)) (mt_map t)) by (apply (gt_map _ G); rewrite Ms; auto).
    rewrite <- Q in M2. apply (om_In_get N.ltb) in M1; [|exact (gt_map_sorted _ G)].
    apply (om_In_get N.ltb) in M2; [|exact (gt_map_sorted _ G)]. congruence. }
  assert (SS : forall y, y <> (0 + j)%N -> slot t y = slot t' y).
  { intros y Ny. rewrite N.add_0_l in Ny. unfold slot. rewrite <- EE, (S y Ny). reflexivity. }
  destruct (aside_other (2 ^ N.of_nat D0) 0 D0 0 (slot t) (slot t') i j Li Lj Nij SS)
    as [l [o' [P [A1 [A2 [B [I1 [I2 O]]]]]]]]. rewrite !N.add_0_l in *. cbn [Nat.add] in *.
  exists (MProof (ms_method src) i c0 (tree_aside t i)), (MProof (ms_method src') i c0 (tree_aside t' i)), l.
  split; [apply (tree_proof_is md src rng t p x V E Ip)|].
  split.
  { unfold i, c0, D0. rewrite QC, QD. apply (tree_proof_is md src' rng' t' p x V' E'). apply DD; assumption. }
  cbn [mp_method mp_pos mp_cofactor mp_path]. unfold tree_aside. rewrite !aside_length, <- QD. fold D0. fold j.
  split; [exact EM|split; [reflexivity|split; [reflexivity|split; [reflexivity|split; [exact P|split; [exact O|]]]]]].
  destruct (b32_eq_dec (phash (2 ^ N.of_nat D0) (Datatypes.S l) (full_tree (D0 - Datatypes.S l) o' (slot t)))
              (phash (2 ^ N.of_nat D0) (Datatypes.S l) (full_tree (D0 - Datatypes.S l) o' (slot t')))) as [Q|Q].
  2: { left. congruence. }
  right. apply phash_compat in Q as [Q|Q].
  - exfalso. apply full_compat with (i := j) in Q; [|apply slot_is_slot|apply slot_is_slot|exact B].
    unfold slot in Q.
    assert (M1 : om_get N.ltb j (mt_map t) = Some (q, m)).
    { apply (om_In_get N.ltb); [exact (gt_map_sorted _ G)|]. apply (gt_map _ G). rewrite Ms. auto. }
    assert (M2 : om_get N.ltb j (mt_map t') = Some (q, m')).
    { apply (om_In_get N.ltb); [exact (gt_map_sorted _ G')|]. apply (gt_map _ G'). rewrite Ms', <- QD, <- QC. auto. }
    rewrite M1, M2 in Q. destruct Q as [_ Q]. contradiction.
  - eapply coll_incl; [|exact Q]. intros y Y. unfold tree_pre, pcommit_pre, tree_full. rewrite <- QD. fold D0.
    apply in_app_or in Y as [Y|Y]; [apply I1 in Y|apply I2 in Y]; rewrite !in_app_iff; tauto.
Qed.

(** ** C73 *)
Lemma dec_all {A} (c : codec A) valid bs a : lawful c valid -> dec c bs = Some (a, []) -> bs = enc c a /\ valid a.
Proof. intros L E. apply (law_can c valid L) in E as [E V]. rewrite app_nil_r in E. auto. Qed.

Lemma c73_proof_bytes : forall (H : Hasher) md1 md2 bs1 bs2 pf1 pf2 pid m1 m2 c
  (decoded1 : dec c_merkle_proof bs1 = Some (pf1, [])) (decoded2 : dec c_merkle_proof bs2 = Some (pf2, []))
  (conv1 : convolve md1 pf1 pid m1 = Ret (Ok c)) (conv2 : convolve md2 pf2 pid m2 = Ret (Ok c)),
  (bs1 = bs2 /\ m1 = m2) \/ collision_in (proof_pre pf1 pid m1 ++ proof_pre pf2 pid m2).
Proof.
  intros H md1 md2 bs1 bs2 pf1 pf2 pid m1 m2 c D1 D2 C1 C2.
  apply (dec_all _ valid_proof) in D1 as [-> V1]; [|apply c33_roundtrip].
  apply (dec_all _ valid_proof) in D2 as [-> V2]; [|apply c33_roundtrip].
  destruct (c60_one_proof H md1 md2 pf1 pf2 pid m1 m2 c V1 V2 C1 C2) as [[-> ->]|C]; [left; auto|right; exact C].
Qed.

Lemma c73_block_bytes : forall (H : Hasher) md bs1 bs2 b1 b2 t1 t2 c
  (decoded1 : dec c_merkle_block bs1 = Some (b1, [])) (decoded2 : dec c_merkle_block bs2 = Some (b2, []))
  (wf1 : block_tree b1 t1) (wf2 : block_tree b2 t2) (max1 : pmaximal t1) (max2 : pmaximal t2)
  (id1 : block_commit_id md b1 = Ret c) (id2 : block_commit_id md b2 = Ret c)
  (same : forall x, In x (pleaves_at (mb_depth b1) 0 0 t1) <-> In x (pleaves_at (mb_depth b2) 0 0 t2))
  (entropy : mb_entropy b1 = mb_entropy b2),
  bs1 = bs2 \/
  collision_in (pcommit_pre (mb_depth b1) (mb_cofactor b1) t1 ++ pcommit_pre (mb_depth b2) (mb_cofactor b2) t2).
Proof.
  intros H md bs1 bs2 b1 b2 t1 t2 c D1 D2 W1 W2 M1 M2 I1 I2 S EE.
  apply (dec_all _ valid_block) in D1 as [-> V1]; [|apply c33_roundtrip].
  apply (dec_all _ valid_block) in D2 as [-> V2]; [|apply c33_roundtrip].
  destruct (c61_maximal H md b1 b2 t1 t2 c W1 W2 M1 M2 I1 I2 S) as [[E1 [E2 [E3 E4]]]|C]; [left|right; exact C].
  f_equal. destruct b1 as [x1 x2 x3 x4 x5], b2 as [y1 y2 y3 y4 y5]. cbn in E1, E2, E3, E4, EE. congruence.
Qed.

(** The commitment of a block does not cover its entropy. *)
Lemma c73_entropy_refuted : forall (H : Hasher), exists bs1 bs2 b1 b2 c,
  bs1 <> bs2 /\ dec c_merkle_block bs1 = Some (b1, []) /\ dec c_merkle_block bs2 = Some (b2, []) /\
  wf_block b1 /\ wf_block b2 /\ known_leaves (mb_cross_section b1) = known_leaves (mb_cross_section b2) /\
  block_commit_id Debug b1 = Ret c /\ block_commit_id Debug b2 = Ret c.
Proof.
  intros H. set (b1 := MBlock Sha256t 0 0 [CommitmentLeaf m1 m2] None).
  set (b2 := MBlock Sha256t 0 0 [CommitmentLeaf m1 m2] (Some 7%N)).
  exists (enc c_merkle_block b1), (enc c_merkle_block b2), b1, b2.
  assert (W1 : block_tree b1 (PLeaf m1 m2)) by (repeat split; cbn; lia).
  assert (W2 : block_tree b2 (PLeaf m1 m2)) by (repeat split; cbn; lia).
  assert (RT : forall b, valid_block b -> dec c_merkle_block (enc c_merkle_block b) = Some (b, [])).
  { intros b V. rewrite <- (app_nil_r (enc c_merkle_block b)). apply (law_rt _ valid_block); [apply c33_roundtrip|exact V]. }
  assert (V1 : valid_block b1) by (repeat split; cbn; try lia; repeat constructor).
  assert (V2 : valid_block b2) by (repeat split; cbn; try lia; repeat constructor).
  eexists. split; [vm_compute; discriminate|].
  split; [apply RT, V1|]. split; [apply RT, V2|]. split; [eexists; exact W1|]. split; [eexists; exact W2|]. split; [reflexivity|].
  split; [apply wf_commit; exact W1|]. rewrite (wf_commit Debug b2 _ W2). reflexivity.
Qed.

(** ** C74 *)
Lemma c74_even : forall cofactor D i (deep : D <= 31),
  let usable := N.max 1 (2 ^ N.of_nat D - cofactor) in
  (i < usable)%N ->
  exists (n : N) (ids : N -> bytes32),
    (2 ^ 256 / usable <= n <= 2 ^ 256 / usable + 1)%N /\
    (forall k, (k < n)%N -> protocol_id_pos (ids k) cofactor D = i) /\
    (forall k k', (k < n)%N -> (k' < n)%N -> ids k = ids k' -> k = k') /\
    (forall pid, protocol_id_pos pid cofactor D = i -> exists k, (k < n)%N /\ pid = ids k).
Proof.
  intros cof D i HD M Li.
  assert (M0 : M <> 0%N) by (unfold M; lia).
  assert (MB : (M <= 2 ^ 31)%N).
  { unfold M. assert (2 ^ N.of_nat D <= 2 ^ 31)%N by (apply N.pow_le_mono_r; lia). assert (1 <= 2 ^ 31)%N by discriminate. lia. }
  assert (PS : forall pid, protocol_id_pos pid cof D = (N_of_b32 pid mod M)%N).
  { intros pid. destruct (protocol_id_pos_spec pid cof D HD) as [E _]. rewrite E, N.max_comm. reflexivity. }
  set (T := (2 ^ 256)%N) in *.
  assert (BT : (2 ^ 31 < T)%N) by reflexivity.
  assert (NV : forall k, (k < (T - 1 - i) / M + 1)%N -> N_of_b32 (b32_of_N (i + k * M)) = (i + k * M)%N).
  { intros k Lk. rewrite N_of_b32_of_N. apply N.mod_small. fold T.
    assert (k <= (T - 1 - i) / M)%N by lia.
    assert (k * M <= T - 1 - i)%N.
    { pose proof (N.mul_div_le (T - 1 - i) M M0). nia. }
    lia. }
  exists ((T - 1 - i) / M + 1)%N, (fun k => b32_of_N (i + k * M)).
  split; [split|split; [|split]].
  - replace ((T - 1 - i) / M + 1)%N with ((T - 1 - i + 1 * M) / M)%N by (apply N.div_add; exact M0).
    apply N.div_le_mono; [exact M0|]. lia.
  - apply N.add_le_mono_r. apply N.div_le_mono; [exact M0|]. lia.
  - intros k Lk. rewrite PS, (NV k Lk). rewrite N.mod_add by exact M0. apply N.mod_small. exact Li.
  - intros k k' Lk Lk' E. apply (f_equal N_of_b32) in E. rewrite (NV k Lk), (NV k' Lk') in E. nia.
  - intros pid E. rewrite PS in E. exists (N_of_b32 pid / M)%N.
    pose proof (N_of_b32_bound pid) as B. fold T in B. pose proof (N.div_mod (N_of_b32 pid) M M0) as DM. rewrite E in DM.
    assert (Lk : (N_of_b32 pid / M < (T - 1 - i) / M + 1)%N).
    { assert (N_of_b32 pid / M <= (T - 1 - i) / M)%N; [|lia].
      apply N.div_le_lower_bound; [exact M0|]. lia. }
    split; [exact Lk|]. apply b32_inj. 
    assert (Q : N_of_b32 pid = N_of_b32 (b32_of_N (i + N_of_b32 pid / M * M))) by (rewrite (NV _ Lk); lia).
    unfold N_of_b32 in Q at 1 2. 
    rewrite <- (le_of_val (b32 pid)), <- (le_of_val (b32 (b32_of_N (i + N_of_b32 pid / M * M)))).
    rewrite !b32_length. rewrite Q. reflexivity.
Qed.
Lemma c74_unused : forall pid cofactor D (deep : D <= 31) (some : (cofactor < 2 ^ N.of_nat D)%N),
  (protocol_id_pos pid cofactor D < 2 ^ N.of_nat D - cofactor)%N.
Proof.
  intros pid cof D HD S. destruct (protocol_id_pos_spec pid cof D HD) as [-> _].
  replace (N.max (2 ^ N.of_nat D - cof) 1) with (2 ^ N.of_nat D - cof)%N by lia. apply N.mod_lt. lia.
Qed.
Lemma c74_unused_slots : forall (H : Hasher) src rng t i
  (valid : valid_source src) (made : try_commit src rng = Ret (Ok t))
  (beyond : (2 ^ N.of_nat (mt_depth t) - mt_cofactor t <= i)%N),
  om_get N.ltb i (mt_map t) = None.
Proof.
  intros H src rng t i V E B. pose proof (try_commit_good _ _ _ V E) as G.
  destruct (om_get N.ltb i (mt_map t)) as [[p m]|] eqn:Q; [|reflexivity]. exfalso.
  apply (om_get_In N.ltb) in Q. apply (gt_map _ G) in Q as [_ Q].
  pose proof (c74_unused p (mt_cofactor t) (mt_depth t) (gt_depth _ G) (gt_cofactor_width _ G)) as L.
  destruct (pos_spec p (mt_cofactor t) (mt_depth t) (gt_depth _ G)) as [Q2 _]. rewrite Q2 in L. lia.
Qed.
Lemma c74_low_bytes : forall p q D (deep : D <= 31) (low : firstn 4 (b32 p) = firstn 4 (b32 q)),
  protocol_id_pos p 0 D = protocol_id_pos q 0 D.
Proof.
  intros p q D HD L.
  assert (Z : forall x : bytes32, protocol_id_pos x 0 D = (le_val (firstn 4 (b32 x)) mod 2 ^ N.of_nat D)%N).
  { intros x. destruct (protocol_id_pos_spec x 0 D HD) as [-> _].
    pose proof (N.pow_nonzero 2 (N.of_nat D)) as NZ.
    replace (N.max (2 ^ N.of_nat D - 0) 1) with (2 ^ N.of_nat D)%N by lia. unfold N_of_b32.
    assert (EX : exists a b c d r, b32 x = a :: b :: c :: d :: r).
    { pose proof (b32_length x) as LX. destruct (b32 x) as [|a [|b [|c [|d r]]]]; try discriminate LX. eauto 6. }
    destruct EX as [a [b [c [d [r EX]]]]]. rewrite EX. cbn [firstn le_val].
    replace (Byte.to_N a + 256 * (Byte.to_N b + 256 * (Byte.to_N c + 256 * (Byte.to_N d + 256 * le_val r))))%N
      with ((Byte.to_N a + 256 * (Byte.to_N b + 256 * (Byte.to_N c + 256 * (Byte.to_N d + 256 * 0)))) +
            (le_val r * 2 ^ N.of_nat (32 - D)) * 2 ^ N.of_nat D)%N.
    - apply N.mod_add. apply NZ. discriminate.
    - rewrite <- N.mul_assoc, <- N.pow_add_r. replace (N.of_nat (32 - D) + N.of_nat D)%N with 32%N by lia.
      change (2 ^ 32)%N with 4294967296%N. lia. }
  rewrite !Z, L. reflexivity.
Qed.

(** ** C75 *)
Lemma c75_frontiers : forall (H : Hasher) md b1 b2 t1 t2 c
  (valid1 : valid_block b1) (valid2 : valid_block b2)
  (frontier1 : mb_cross_section b1 = flatten 0 t1) (leaves1 : pwf_loose (mb_depth b1) 0 t1)
  (frontier2 : mb_cross_section b2 = flatten 0 t2) (leaves2 : pwf_loose (mb_depth b2) 0 t2)
  (id1 : block_commit_id md b1 = Ret c) (id2 : block_commit_id md b2 = Ret c),
  (wf_block b1 /\ wf_block b2 /\ exists b n, merge_reveal md b1 b2 = Ret (b, Ok n)) \/
  (~ (wf_block b1 /\ wf_block b2) /\ exists p, merge_reveal md b1 b2 = Panic p) \/
  collision_in (pcommit_pre (mb_depth b1) (mb_cofactor b1) t1 ++ pcommit_pre (mb_depth b2) (mb_cofactor b2) t2).
Proof.
  intros H md b1 b2 t1 t2 c [D1 [C1 _]] [D2 [C2 _]] X1 L1 X2 L2 I1 I2.
  rewrite (block_commit_id_ok md b1 t1 D1 X1 L1) in I1. rewrite (block_commit_id_ok md b2 t2 D2 X2 L2) in I2.
  destruct (pcommit_inj (mb_depth b1) (mb_depth b2) (mb_cofactor b1) (mb_cofactor b2) t1 t2 D1 D2 C1 C2) as [[ED [EC PC]]|K];
    [congruence| |right; right; exact K].
  pose proof (wf_tree b1 t1 X1 L1 D1 C1) as Q1. pose proof (wf_tree b2 t2 X2 L2 D2 C2) as Q2. rewrite <- ED in Q2.
  destruct (pwf_dec (mb_depth b1) 0 t1) as [P1|P1]; [destruct (pwf_dec (mb_depth b1) 0 t2) as [P2|P2]|].
  - left. split; [apply Q1, P1|]. split; [apply Q2, P2|].
    destruct (merge_reveal_compat md b1 b2 t1 t2) as [E _]; try assumption.
    + repeat split; assumption.
    + rewrite ED in P2. repeat split; assumption.
    + rewrite E. eauto.
  - right; left. split; [rewrite Q1, Q2; tauto|]. eapply merge_deep_panics; try eassumption. tauto.
  - right; left. split; [rewrite Q1, Q2; tauto|]. eapply merge_deep_panics; try eassumption. tauto.
Qed.
Lemma c75_debug : forall (H : Hasher) b1 b2 (valid1 : valid_block b1) (valid2 : valid_block b2),
  ((exists b n, merge_reveal Debug b1 b2 = Ret (b, Ok n)) <->
   wf_block b1 /\ wf_block b2 /\ exists c, block_commit_id Debug b1 = Ret c /\ block_commit_id Debug b2 = Ret c) \/
  exists t1 t2, mb_cross_section b1 = flatten 0 t1 /\ mb_cross_section b2 = flatten 0 t2 /\
    collision_in (pcommit_pre (mb_depth b1) (mb_cofactor b1) t1 ++ pcommit_pre (mb_depth b2) (mb_cofactor b2) t2).
Proof.
  intros H b1 b2 V1 V2.
  destruct (block_commit_id Debug b1) as [c1|p1] eqn:I1.
  2: { left. split.
       - intros [b [n E]]. apply merge_reveal_ok_any in E as [c [E _]]. congruence.
       - intros [_ [_ [c [E _]]]]. discriminate. }
  destruct (block_commit_id Debug b2) as [c2|p2] eqn:I2.
  2: { left. split.
       - intros [b [n E]]. apply merge_reveal_ok_any in E as [c [_ [E _]]]. congruence.
       - intros [_ [_ [c [_ E]]]]. discriminate. }
  destruct (b32_eq_dec c1 c2) as [->|N].
  2: { left. split.
       - intros [b [n E]]. apply merge_reveal_ok_any in E as [c [E1 [E2 _]]]. congruence.
       - intros [_ [_ [c [E1 E2]]]]. congruence. }
  pose proof I1 as J1. pose proof I2 as J2.
  apply (block_commit_id_debug_iff b1 c2 (proj1 V1)) in J1 as [t1 [X1 [L1 _]]].
  apply (block_commit_id_debug_iff b2 c2 (proj1 V2)) in J2 as [t2 [X2 [L2 _]]].
  destruct (c75_frontiers H Debug b1 b2 t1 t2 c2 V1 V2 X1 L1 X2 L2 I1 I2) as [[W1 [W2 E]]|[[NW [p E]]|K]].
  - left. split; [intros _|intros _; exact E]. split; [exact W1|split; [exact W2|eauto]].
  - left. split; [intros [b [n E']]; congruence|]. intros [W1 [W2 _]]. tauto.
  - right. eauto.
Qed.
Lemma c75_refusal : forall (H : Hasher) md b1 b2 b e,
  merge_reveal md b1 b2 = Ret (b, Err e) <->
  exists c1 c2, block_commit_id md b1 = Ret c1 /\ block_commit_id md b2 = Ret c2 /\ c1 <> c2 /\
    b = b1 /\ e = UnrelatedBlocks c1 c2.
Proof.
  intros H md b1 b2 b e. split.
  - intros E. unfold merge_reveal in E. apply bind_inv in E as [c1 [E1 E]]. apply bind_inv in E as [c2 [E2 E]].
    exists c1, c2. destruct (b32_eqb c1 c2) eqn:Q; cbn [negb] in E.
    + exfalso. apply bind_inv in E as [xs [_ E]]. destruct xs as [|x xs]; [discriminate|].
      apply bind_inv in E as [? [_ E]]. apply bind_inv in E as [? [_ E]]. apply bind_inv in E as [? [_ E]].
      apply bind_inv in E as [? [_ E]]. apply bind_inv in E as [? [_ E]]. discriminate.
    + injection E as <- <-. assert (N : c1 <> c2) by (intros ->; rewrite b32_eqb_refl in Q; discriminate). auto 6.
  - intros [c1 [c2 [E1 [E2 [N [-> ->]]]]]]. exact (c14_unrelated H md b1 b2 c1 c2 E1 E2 N).
Qed.

(** ** C76 *)
Lemma c76_lawful : forall Pub Cli (cp : codec Pub) (cc : codec Cli) vp vc
  (published : lawful cp vp) (client : lawful cc vc),
  lawful (c_seal_witness cp cc) (fun w => vp (fst w) /\ vc (snd w)).
Proof. intros Pub Cli cp cc vp vc L1 L2. unfold c_seal_witness. apply c_pair_lawful; assumption. Qed.
Lemma c76_layout : forall Pub Cli (cp : codec Pub) (cc : codec Cli) pub cli,
  enc (c_seal_witness cp cc) (witness_new pub cli) = enc cp pub ++ enc cc cli.
Proof. reflexivity. Qed.
Lemma c76_one_witness : forall (H : Hasher) Seal Pub PubId PubErr CliErr
    (P : seal_protocol Seal bytes32 Pub merkle_proof bytes32 PubId PubErr CliErr) (cp : codec Pub) vp
    md pid bs1 bs2 pub pf1 pf2 seals1 seals2 msg1 msg2 u1 u2
  (published : lawful cp vp)
  (client : forall w x c, sl_convolve P w x = Ok c -> convolve md w pid x = Ret (Ok c))
  (one_proof : forall p q v w, sl_verify_commitment P pub p = Ok v -> sl_verify_commitment P pub q = Ok w -> p = q)
  (decoded1 : dec (c_seal_witness cp c_merkle_proof) bs1 = Some (witness_new pub pf1, []))
  (decoded2 : dec (c_seal_witness cp c_merkle_proof) bs2 = Some (witness_new pub pf2, []))
  (closed1 : verify_seals_closing P (witness_new pub pf1) seals1 msg1 = Ok u1)
  (closed2 : verify_seals_closing P (witness_new pub pf2) seals2 msg2 = Ok u2),
  (bs1 = bs2 /\ msg1 = msg2) \/ collision_in (proof_pre pf1 pid msg1 ++ proof_pre pf2 pid msg2).
Proof.
  intros H Seal Pub PubId PubErr CliErr P cp vp md pid bs1 bs2 pub pf1 pf2 s1 s2 g1 g2 u1 u2 LP CL ONE D1 D2 V1 V2.
  pose proof (c76_lawful _ _ cp c_merkle_proof vp valid_proof LP (proj1 c33_roundtrip)) as LW.
  apply (dec_all _ _ _ _ LW) in D1 as [-> [_ W1]]. apply (dec_all _ _ _ _ LW) in D2 as [-> [_ W2]]. cbn in W1, W2.
  apply closing_ok in V1 as [_ [c [C1 A1]]]. apply closing_ok in V2 as [_ [c' [C2 A2]]].
  pose proof (ONE _ _ _ _ A1 A2) as E. subst c'.
  destruct (c60_one_proof H md md pf1 pf2 pid g1 g2 c W1 W2 (CL _ _ _ C1) (CL _ _ _ C2)) as [[-> ->]|K]; [left; auto|right; exact K].
Qed.
Lemma c76_report : forall Seal Msg Pub Cli Proof PubId PubErr CliErr
    (P : seal_protocol Seal Msg Pub Cli Proof PubId PubErr CliErr) show_seal show_id show_pub show_cli pub cli seals msg e
  (refused : verify_seals_closing P (witness_new pub cli) seals msg = Err e),
  let text := seal_error_text show_seal show_id show_pub show_cli e in
  (exists before s after, seals = before ++ s :: after /\
     (forall x, In x before -> sl_is_included P x msg (pub, cli) = true) /\ sl_is_included P s msg (pub, cli) = false /\
     text = ("seal " ++ show_seal s ++ " is not included in the witness " ++ show_id (sl_pub_id P pub))%string /\
     seal_error_source e = None) \/
  ((forall x, In x seals -> sl_is_included P x msg (pub, cli) = true) /\
   ((exists x, sl_convolve P cli msg = Err x /\ text = show_cli x /\ seal_error_source e = Some (inr x)) \/
    (exists y x, sl_convolve P cli msg = Ok y /\ sl_verify_commitment P pub y = Err x /\ text = show_pub x /\
       seal_error_source e = Some (inl x)))).
Proof.
  intros Seal Msg Pub Cli Proof PubId PubErr CliErr P ss si sp0 sc pub cli seals msg e V text. subst text.
  unfold verify_seals_closing, witness_new in V. cbn [fst snd] in V.
  assert (CI : match check_included P (pub, cli) seals msg with
     | None => forall x, In x seals -> sl_is_included P x msg (pub, cli) = true
     | Some er => exists before s after, seals = before ++ s :: after /\
         (forall x, In x before -> sl_is_included P x msg (pub, cli) = true) /\ sl_is_included P s msg (pub, cli) = false /\
         er = SeNotIncluded s (sl_pub_id P pub) end).
  { clear V e. induction seals as [|s r IH]; cbn [check_included]; [intros x []|].
    destruct (sl_is_included P s msg (pub, cli)) eqn:Q.
    - destruct (check_included P (pub, cli) r msg) as [er|].
      + destruct IH as [bf [s' [af [-> [A [B C]]]]]]. exists (s :: bf), s', af. split; [reflexivity|].
        split; [intros x [<-|I]; auto|auto].
      + intros x [<-|I]; auto.
    - exists [], s, r. split; [reflexivity|]. split; [intros x []|auto]. }
  destruct (check_included P (pub, cli) seals msg) as [er|].
  - left. injection V as <-. destruct CI as [bf [s [af [A [B [C ->]]]]]]. exists bf, s, af. auto 6.
  - right. split; [exact CI|]. destruct (sl_convolve P cli msg) as [y|x] eqn:Q.
    + right. destruct (sl_verify_commitment P pub y) as [u|x] eqn:Q2; [discriminate|]. injection V as <-. exists y, x. auto.
    + left. injection V as <-. exists x. auto.
Qed.

(** ** C77 *)
Lemma os_insert_length {K} (ltb : K -> K -> bool) k m : length (os_insert ltb k m) <= S (length m).
Proof.
  induction m as [|a m IH]; cbn [os_insert length]; [lia|]. destruct (ltb k a); cbn [length]; [lia|].
  destruct (ltb a k); cbn [length]; lia.
Qed.
Lemma os_of_list_length {K} (ltb : K -> K -> bool) l : length (os_of_list ltb l) <= length l.
Proof.
  unfold os_of_list. enough (G : forall acc, length (fold_left (fun m k => os_insert ltb k m) l acc) <= length acc + length l).
  { apply (G []). }
  induction l as [|a l IH]; intros acc; cbn [fold_left length]; [lia|]. specialize (IH (os_insert ltb a acc)).
  pose proof (os_insert_length ltb a acc). lia.
Qed.
Lemma os_sorted_ext {K} (ltb : K -> K -> bool) {HO : StrictOrd ltb} l l' :
  os_sorted ltb l -> os_sorted ltb l' -> (forall x, In x l <-> In x l') -> l = l'.
Proof.
  intros S. revert l'. induction S as [|k l L S IH]; intros l' S' E.
  - destruct l' as [|k' l']; [reflexivity|]. destruct (proj2 (E k') (or_introl eq_refl)).
  - destruct S' as [|k' l' L' S']; [destruct (proj1 (E k) (or_introl eq_refl))|].
    assert (Q : k = k').
    { destruct (proj1 (E k) (or_introl eq_refl)) as [->|I]; [reflexivity|].
      destruct (proj2 (E k') (or_introl eq_refl)) as [->|I']; [reflexivity|].
      apply L' in I. apply L in I'. pose proof (so_trans _ _ _ I I') as C. rewrite so_irrefl in C. discriminate. }
    subst k'. f_equal. apply IH; [exact S'|]. intros x. split; intros I.
    + destruct (proj1 (E x) (or_intror I)) as [<-|I']; [|exact I']. apply L in I. rewrite so_irrefl in I. discriminate.
    + destruct (proj2 (E x) (or_intror I)) as [<-|I']; [|exact I']. apply L' in I. rewrite so_irrefl in I. discriminate.
Qed.

Lemma c77_root : forall (H : Hasher) T (ltb : T -> T -> bool) (id : T -> bytes32) xs r
  (order : StrictOrd ltb) (few : (N.of_nat (length xs) < 2 ^ 32)%N),
  (merklize_leaves id (vec_leaves xs) = Ret r <-> merkle_root_of (map id xs) r) /\
  (merklize_leaves id (set_leaves (set_of ltb xs)) = Ret r <->
   exists l, StronglySorted (fun a b => ltb a b = true) l /\ (forall x, In x l <-> In x xs) /\ merkle_root_of (map id l) r).
Proof.
  intros H T ltb id xs r O F. unfold merklize_leaves, vec_leaves, set_leaves. split.
  - apply c23_balanced. rewrite map_length. exact F.
  - assert (SS : forall l, os_sorted ltb l <-> StronglySorted (fun a b => ltb a b = true) l).
    { induction l as [|a l IH]; split; intros S; try constructor; inversion S; subst; try tauto.
      - apply Forall_forall. assumption.
      - apply Forall_forall. assumption. }
    assert (B : (N.of_nat (length (map id (set_of ltb xs))) < 2 ^ 32)%N).
    { rewrite map_length. unfold set_of. pose proof (os_of_list_length ltb xs) as L. lia. }
    rewrite (c23_balanced H _ _ B). split.
    + intros R. exists (set_of ltb xs). split; [apply SS, os_of_list_sorted; exact O|]. split; [apply (os_of_list_In ltb)|exact R].
    + intros [l [S [I R]]]. replace (set_of ltb xs) with l; [exact R|]. apply (os_sorted_ext (HO := O) ltb).
      * apply SS, S.
      * apply os_of_list_sorted. exact O.
      * intros x. rewrite I. unfold set_of. rewrite (os_of_list_In ltb). reflexivity.
Qed.
Lemma c77_order : forall (H : Hasher) T (ltb : T -> T -> bool) (id : T -> bytes32) xs ys
  (order : StrictOrd ltb) (same : forall x, In x xs <-> In x ys),
  merklize_leaves id (set_leaves (set_of ltb xs)) = merklize_leaves id (set_leaves (set_of ltb ys)).
Proof.
  intros H T ltb id xs ys O S. unfold merklize_leaves, set_leaves, set_of. do 2 f_equal.
  apply (os_sorted_ext (HO := O) ltb); try apply os_of_list_sorted; try exact O.
  intros x. rewrite !(os_of_list_In ltb). apply S.
Qed.
Lemma one_or_many_tagged {H : Hasher} tag data ys r L : tag <> s_node_tag -> length ys <> 1 ->
  merkle_root_of [HASH (s_pre tag data)] r -> merkle_root_of ys r -> root_hashed ys L ->
  collision_in (tag :: s_pre tag data :: L).
Proof.
  intros T N R1 R2 H2.
  assert (E1 : r = HASH (s_pre tag data)).
  { apply (root_fun [HASH (s_pre tag data)]); [exact R1|exact (root_single _)]. }
  destruct R2 as [a|ys t _ S]; [cbn in N; congruence|].
  destruct H2 as [a|ys t' _ S']; [cbn in N; congruence|]. rewrite (splits_fun _ _ S' _ S).
  assert (G : forall data', In (s_pre s_node_tag data') (mtpre (N.of_nat (length ys)) 0 t) ->
     HASH (s_pre tag data) = HASH (s_pre s_node_tag data') ->
     collision_in (tag :: s_pre tag data :: s_node_tag :: mtpre (N.of_nat (length ys)) 0 t)).
  { intros data' I E. destruct (bytes_eq_dec (s_pre tag data) (s_pre s_node_tag data')) as [Q|Q].
    - apply s_pre_tags in Q as [Q _]. exists tag, s_node_tag. cbn [In]. tauto.
    - exists (s_pre tag data), (s_pre s_node_tag data'). cbn [In]. tauto. }
  destruct (mthash_top (N.of_nat (length ys)) 0 ys t S N) as [[_ ->]|[a [b [E I]]]].
  - eapply G; [left; reflexivity|]. rewrite <- E1. reflexivity.
  - eapply G; [exact I|]. rewrite <- E1. exact E.
Qed.
Lemma c77_vector : forall (H : Hasher) T (tag : list byte) (encode : T -> list byte) xs ys r L L'
  (injective : forall a b, encode a = encode b -> a = b) (own_tag : tag <> s_node_tag),
  let id x := HASH (s_pre tag (encode x)) in
  forall (root1 : merklize_leaves id (vec_leaves xs) = Ret r) (root2 : merklize_leaves id (vec_leaves ys) = Ret r)
  (hashed1 : root_hashed (map id xs) L) (hashed2 : root_hashed (map id ys) L'),
  xs = ys \/ collision_in (tag :: map (fun x => s_pre tag (encode x)) (xs ++ ys) ++ L ++ L').
Proof.
  intros H T tag en xs ys r L L' INJ TAG id R1 R2 H1 H2.
  set (pre := fun x => s_pre tag (en x)) in *.
  assert (G : forall l l', map id l = map id l' -> l = l' \/ collision_in (map pre l ++ map pre l')).
  { induction l as [|a l IH]; intros [|b l'] Q; try discriminate; [left; reflexivity|].
    cbn [map] in Q. injection Q as Q1 Q2.
    destruct (coll (map pre (a :: l) ++ map pre (b :: l')) (pre a) (pre b)) as [Q|K];
      [rewrite in_app_iff; cbn; tauto|rewrite in_app_iff; cbn; tauto|exact Q1| |right; exact K].
    apply s_pre_inj, INJ in Q. subst b. destruct (IH l' Q2) as [->|K]; [left; reflexivity|right].
    eapply coll_incl; [|exact K]. intros z. rewrite !in_app_iff. cbn [map In]. tauto. }
  unfold merklize_leaves, vec_leaves in R1, R2.
  destruct (Nat.eq_dec (length xs) 1) as [N1|N1], (Nat.eq_dec (length ys) 1) as [N2|N2].
  1,4: destruct (c24_binding H _ _ r L L' R1 R2 H1 H2) as [E|K];
    [rewrite !map_length; tauto| |right; eapply coll_incl; [|exact K]; intros z I; right; apply in_or_app; right; exact I].
  1,2: destruct (G _ _ E) as [Q|K]; [left; exact Q|right; eapply coll_incl; [|exact K];
    intros z I; right; apply in_or_app; left; rewrite map_app; exact I].
  - assert (B1 : (N.of_nat (length (map id xs)) < 2 ^ 32)%N) by (apply (c22_limit H); eauto).
    assert (B2 : (N.of_nat (length (map id ys)) < 2 ^ 32)%N) by (apply (c22_limit H); eauto).
    apply (c23_balanced H _ _ B1) in R1. apply (c23_balanced H _ _ B2) in R2. right.
    destruct xs as [|x [|? ?]]; try discriminate N1. cbn [map] in R1.
    refine (coll_incl _ _ _ (one_or_many_tagged tag (en x) _ r L' TAG _ R1 R2 H2)); [|rewrite map_length; exact N2].
    intros z [<-|[<-|I]]; [left; reflexivity|right; left; reflexivity|].
    right. apply in_or_app. right. apply in_or_app. right. exact I.
  - assert (B1 : (N.of_nat (length (map id xs)) < 2 ^ 32)%N) by (apply (c22_limit H); eauto).
    assert (B2 : (N.of_nat (length (map id ys)) < 2 ^ 32)%N) by (apply (c22_limit H); eauto).
    apply (c23_balanced H _ _ B1) in R1. apply (c23_balanced H _ _ B2) in R2. right.
    destruct ys as [|y [|? ?]]; try discriminate N2. cbn [map] in R2.
    refine (coll_incl _ _ _ (one_or_many_tagged tag (en y) _ r L TAG _ R2 R1 H1)); [|rewrite map_length; exact N1].
    intros z [<-|[<-|I]]; [left; reflexivity| |].
    + right. apply in_or_app. left. apply (in_map pre), in_or_app. right. left. reflexivity.
    + right. apply in_or_app. right. apply in_or_app. left. exact I.
Qed.
Lemma c77_set : forall (H : Hasher) T (ltb : T -> T -> bool) (tag : list byte) (encode : T -> list byte) xs ys r L L'
  (order : StrictOrd ltb) (injective : forall a b, encode a = encode b -> a = b) (own_tag : tag <> s_node_tag),
  let id x := HASH (s_pre tag (encode x)) in
  forall (root1 : merklize_leaves id (set_leaves (set_of ltb xs)) = Ret r)
  (root2 : merklize_leaves id (set_leaves (set_of ltb ys)) = Ret r)
  (hashed1 : root_hashed (map id (set_of ltb xs)) L) (hashed2 : root_hashed (map id (set_of ltb ys)) L'),
  (forall x, In x xs <-> In x ys) \/
  collision_in (tag :: map (fun x => s_pre tag (encode x)) (xs ++ ys) ++ L ++ L').
Proof.
  intros H T ltb tag en xs ys r L L' O INJ TAG id R1 R2 H1 H2.
  destruct (c77_vector H T tag en (set_of ltb xs) (set_of ltb ys) r L L' INJ TAG R1 R2 H1 H2) as [Q|K]; [left|right].
  - intros x. rewrite <- (os_of_list_In ltb xs x), <- (os_of_list_In ltb ys x). unfold set_of in Q. rewrite Q. reflexivity.
  - set (pre := fun x => s_pre tag (en x)) in *. eapply coll_incl; [|exact K].
    intros z [<-|I]; [left; reflexivity|right]. apply in_app_or in I as [I|I]; apply in_or_app; [left|right; exact I].
    apply in_map_iff in I as [x [<- I]]. apply (in_map pre), in_or_app.
    apply in_app_or in I as [I|I]; apply (proj1 (os_of_list_In ltb _ _)) in I; [left|right]; exact I.
Qed.
(** Elements which are themselves hashes need a tag of their own: otherwise a set of one element can pose as a larger one. *)
Lemma c77_untagged_refuted : forall (H : Hasher) (a b : bytes32), a <> b -> exists x r,
  merklize_leaves (fun h => h) (set_leaves (set_of b32_ltb [a; b])) = Ret r /\
  merklize_leaves (fun h => h) (set_leaves (set_of b32_ltb [x])) = Ret r /\
  ~ (forall y, In y [a; b] <-> In y [x]).
Proof.
  intros H a b N. destruct (c22_total H (set_of b32_ltb [a; b])) as [r E].
  - unfold set_of, os_of_list. cbn [fold_left]. cbn [os_insert]. destruct (b32_ltb b a), (b32_ltb a b); reflexivity.
  - exists r, r. unfold merklize_leaves, set_leaves. rewrite !map_id. split; [exact E|]. split; [reflexivity|].
    intros F. pose proof (proj1 (F a) (or_introl eq_refl)) as [Ea|[]].
    pose proof (proj1 (F b) (or_intror (or_introl eq_refl))) as [Eb|[]]. congruence.
Qed.
