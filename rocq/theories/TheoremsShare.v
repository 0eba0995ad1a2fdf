(** C120: when two proofs contain the same hash. *)
From Verif Require Import Base BaseFacts OrdMap OrdMapFacts Strict Merkle MpcAtoms MpcTree MpcBlock.
From Verif Require Import SpecHash SpecTree SpecMerkle SpecFull SpecLocal SpecValid SpecCommit SpecViewGame SpecSeek SpecShare.
From Verif Require Import HashFacts TreeFacts MerkleProofs MpcTreeProofs ConcealProofs LocalProofs DerivedProofs HideProofs.
From Verif Require Import TheoremsMpc TheoremsMore TheoremsBlock TheoremsLocal TheoremsHide TheoremsGame TheoremsViewGame.
Local Open Scope nat_scope.

Section Strings.
Context {H : Hasher}.

(** The string hashed for what a slot holds *)
Definition held_str (h : (bytes32 * bytes32) + (N * N)) : list byte :=
  match h with inl (p, m) => s_leaf p m | inr (e, i) => s_entropy e i end.
Lemma held_hash t W d i : phash W d (slot t i) = HASH (held_str (holds t i)).
Proof. unfold slot, holds, slot_of. destruct (om_get N.ltb i (mt_map t)) as [[p m]|]; reflexivity. Qed.

(** The string hashed for a subtree, and all of them *)
Definition part_str (t : merkle_tree) (W : N) (d k : nat) (o : N) : list byte :=
  match k with
  | O => held_str (holds t o)
  | S k' => s_branch d W (phash W (S d) (full_tree k' o (slot t))) (phash W (S d) (full_tree k' (o + 2 ^ N.of_nat k')%N (slot t)))
  end.
Fixpoint part_strs (t : merkle_tree) (W : N) (d k : nat) (o : N) : list (list byte) :=
  part_str t W d k o ::
  match k with O => [] | S k' => part_strs t W (S d) k' o ++ part_strs t W (S d) k' (o + 2 ^ N.of_nat k')%N end.
Lemma part_hash t W d k o : phash W d (full_tree k o (slot t)) = HASH (part_str t W d k o).
Proof. destruct k; [apply held_hash|reflexivity]. Qed.
Lemma part_first t W d k o : In (part_str t W d k o) (part_strs t W d k o).
Proof. destruct k; left; reflexivity. Qed.

Lemma part_sub t W K q k o : sub K q k o -> forall D, K <= D -> incl (part_strs t W (D - k) k o) (part_strs t W (D - K) K q).
Proof.
  induction 1 as [K q|K q k o Su IH|K q k o Su IH]; intros D L x Ix; [exact Ix| |]; cbn [part_strs]; right; apply in_or_app;
    replace (S (D - S K)) with (D - K) by lia; [left|right]; (apply (IH D); [lia|exact Ix]).
Qed.
Lemma part_known t W k : forall d o x, In x (part_strs t W d k o) ->
  In x (ppre W d (full_tree k o (slot t))) \/
  exists i, (o <= i < o + 2 ^ N.of_nat k)%N /\ om_get N.ltb i (mt_map t) = None /\ x = s_entropy (mt_entropy t) i.
Proof.
  induction k as [|k IH]; intros d o x I.
  - destruct I as [<-|[]]. cbn [full_tree part_str]. unfold slot, holds, slot_of.
    destruct (om_get N.ltb o (mt_map t)) as [[p m]|] eqn:Q; [left; left; reflexivity|]. right. exists o.
    change (2 ^ N.of_nat 0)%N with 1%N. split; [lia|auto].
  - cbn [part_strs] in I. rewrite Nat2N.inj_succ, N.pow_succ_r'. destruct I as [<-|I]; [left; left; reflexivity|].
    cbn [full_tree ppre]. apply in_app_or in I as [I|I]; apply IH in I as [I|(i & B & N & E)].
    + left. right. apply in_or_app. auto.
    + right. exists i. split; [lia|auto].
    + left. right. apply in_or_app. auto.
    + right. exists i. split; [lia|auto].
Qed.
Lemma part_pre t k o : sub (mt_depth t) 0 k o ->
  incl (part_strs t (2 ^ N.of_nat (mt_depth t)) (mt_depth t - k) k o) (tree_pre t).
Proof.
  intros S x I. apply (part_sub t _ _ _ _ _ S (mt_depth t) (le_n _)) in I. rewrite Nat.sub_diag in I.
  unfold tree_pre, pcommit_pre, tree_full. apply part_known in I as [I|(i & B & N & ->)]; apply in_or_app.
  - left. apply in_or_app. right. exact I.
  - right. unfold entropy_pre. apply in_flat_map. exists i. rewrite N in *. split; [|left; reflexivity].
    apply MerkleProofs.N_from_In. rewrite Nat2N.inj_pow. change (N.of_nat 2) with 2%N. lia.
Qed.
End Strings.

Lemma held_inj {H : Hasher} t1 t2 i j : (mt_entropy t1 < 2 ^ 64)%N -> (mt_entropy t2 < 2 ^ 64)%N -> (i < 2 ^ 32)%N -> (j < 2 ^ 32)%N ->
  held_str (holds t1 i) = held_str (holds t2 j) -> holds t1 i = holds t2 j.
Proof.
  intros B1 B2 Bi Bj. unfold holds. destruct (slot_of t1 i) as [[p m]|], (slot_of t2 j) as [[p' m']|]; cbn [held_str]; intros E.
  - apply s_leaf_inj in E as [-> ->]. reflexivity.
  - exfalso. exact (s_leaf_entropy _ _ _ _ E).
  - exfalso. symmetry in E. exact (s_leaf_entropy _ _ _ _ E).
  - apply s_entropy_inj in E as [-> ->]; try assumption. reflexivity.
Qed.
Lemma held_branch {H : Hasher} h d W a b : held_str h <> s_branch d W a b.
Proof. destruct h as [[p m]|[e i]]; [apply s_leaf_branch|apply s_entropy_branch]. Qed.

(** Equal hashes of two subtrees *)
Lemma part_inj {H : Hasher} t1 t2 W1 W2 : (mt_entropy t1 < 2 ^ 64)%N -> (mt_entropy t2 < 2 ^ 64)%N -> (W1 < 2 ^ 256)%N -> (W2 < 2 ^ 256)%N ->
  forall k1 k2 d1 d2 o1 o2, d1 + k1 <= 255 -> d2 + k2 <= 255 -> (o1 + 2 ^ N.of_nat k1 <= 2 ^ 32)%N -> (o2 + 2 ^ N.of_nat k2 <= 2 ^ 32)%N ->
  phash W1 d1 (full_tree k1 o1 (slot t1)) = phash W2 d2 (full_tree k2 o2 (slot t2)) ->
  (k1 = k2 /\ (k1 = 0 \/ W1 = W2 /\ d1 = d2) /\ forall i, (i < 2 ^ N.of_nat k1)%N -> holds t1 (o1 + i) = holds t2 (o2 + i)) \/
  collision_in (part_strs t1 W1 d1 k1 o1 ++ part_strs t2 W2 d2 k2 o2).
Proof.
  intros B1 B2 BW1 BW2. induction k1 as [|k1 IH]; intros k2 d1 d2 o1 o2 L1 L2 O1 O2 E;
    pose proof E as E0; rewrite !part_hash in E0;
    (match type of E0 with HASH ?a = HASH ?b => destruct (list_eq_dec Byte.byte_eq_dec a b) as [Q|Q] end;
     [|right; eexists _, _; split; [apply in_or_app; left; apply part_first|split; [apply in_or_app; right; apply part_first|split; [exact Q|exact E0]]]]);
    destruct k2 as [|k2]; cbn [part_str] in Q.
  - left. split; [reflexivity|split; [left; reflexivity|]]. change (2 ^ N.of_nat 0)%N with 1%N in *. intros i Bi. replace i with 0%N by lia. rewrite !N.add_0_r.
    apply (@held_inj H); [assumption|assumption|lia|lia|exact Q].
  - exfalso. exact (held_branch _ _ _ _ _ Q).
  - exfalso. symmetry in Q. exact (held_branch _ _ _ _ _ Q).
  - apply s_branch_inj in Q as (Ed & EW & El & Er); [|lia|lia|assumption|assumption].
    rewrite Nat2N.inj_succ, N.pow_succ_r' in O1, O2.
    assert (LC : forall A B, incl A (part_strs t1 W1 (S d1) k1 o1 ++ part_strs t1 W1 (S d1) k1 (o1 + 2 ^ N.of_nat k1)%N) ->
      incl B (part_strs t2 W2 (S d2) k2 o2 ++ part_strs t2 W2 (S d2) k2 (o2 + 2 ^ N.of_nat k2)%N) -> collision_in (A ++ B) ->
      collision_in (part_strs t1 W1 d1 (S k1) o1 ++ part_strs t2 W2 d2 (S k2) o2)).
    { intros A B IA IB (x & y & Ix & Iy & N & X). exists x, y. assert (K : forall z, In z (A ++ B) -> In z (part_strs t1 W1 d1 (S k1) o1 ++ part_strs t2 W2 d2 (S k2) o2)).
      { intros z Iz. apply in_app_or in Iz as [Iz|Iz]; apply in_or_app; [left; right; apply IA, Iz|right; right; apply IB, Iz]. }
      auto. }
    destruct (IH k2 (S d1) (S d2) o1 o2 ltac:(lia) ltac:(lia) ltac:(lia) ltac:(lia) El) as [(Ek & _ & Hl)|C];
      [|right; eapply LC; [..|exact C]; apply incl_appl, incl_refl].
    destruct (IH k2 (S d1) (S d2) (o1 + 2 ^ N.of_nat k1)%N (o2 + 2 ^ N.of_nat k2)%N ltac:(lia) ltac:(lia) ltac:(lia) ltac:(lia) Er) as [(_ & _ & Hr)|C];
      [|right; eapply LC; [..|exact C]; apply incl_appr, incl_refl].
    left. subst k2. split; [reflexivity|split; [right; auto|]]. rewrite Nat2N.inj_succ, N.pow_succ_r'. intros i Bi.
    destruct (N.ltb_spec i (2 ^ N.of_nat k1)) as [Bl|Bl]; [apply Hl, Bl|].
    specialize (Hr (i - 2 ^ N.of_nat k1)%N ltac:(lia)).
    replace (o1 + 2 ^ N.of_nat k1 + (i - 2 ^ N.of_nat k1))%N with (o1 + i)%N in Hr by lia.
    replace (o2 + 2 ^ N.of_nat k1 + (i - 2 ^ N.of_nat k1))%N with (o2 + i)%N in Hr by lia. exact Hr.
Qed.
(** Equal contents *)
Lemma part_eq {H : Hasher} t1 t2 W : forall k d o1 o2, (forall i, (i < 2 ^ N.of_nat k)%N -> holds t1 (o1 + i) = holds t2 (o2 + i)) ->
  phash W d (full_tree k o1 (slot t1)) = phash W d (full_tree k o2 (slot t2)).
Proof.
  induction k as [|k IH]; intros d o1 o2 Q.
  - cbn [full_tree]. rewrite !held_hash. specialize (Q 0%N ltac:(reflexivity)). rewrite !N.add_0_r in Q. rewrite Q. reflexivity.
  - rewrite Nat2N.inj_succ, N.pow_succ_r' in Q. cbn [full_tree phash]. f_equal. f_equal; apply IH; intros i Bi.
    + apply Q. lia.
    + rewrite <- !N.add_assoc. apply Q. lia.
Qed.

(** The hashes of a proof, from the leaf up *)
Lemma proof_hash {H : Hasher} md src rng t x y pf k h : valid_source src -> try_commit src rng = Ret (Ok t) -> In (x, y) (ms_messages src) ->
  to_merkle_proof md (block_of_tree t) x = Ret (Ok pf) -> nth_error (rev (mp_path pf)) k = Some h ->
  k < mt_depth t /\ sub (mt_depth t) 0 k (first_beside (mp_pos pf) k) /\ mp_pos pf = s_pos x (mt_cofactor t) (mt_depth t) /\
  h = phash (2 ^ N.of_nat (mt_depth t)) (mt_depth t - k) (full_tree k (first_beside (mp_pos pf) k) (slot t)).
Proof.
  intros V E I P Nh. pose proof (try_commit_good _ _ _ V E) as G. rewrite (tree_proof_is md src rng t x y V E I) in P. injection P as <-.
  cbn [mp_path mp_pos] in *. unfold tree_aside in Nh. set (pos := s_pos x _ _) in *.
  assert (B : (pos < 2 ^ N.of_nat (mt_depth t))%N) by (apply pos_spec, (gt_depth _ G)).
  destruct (aside_levels (2 ^ N.of_nat (mt_depth t)) (mt_depth t) (slot t) pos (mt_depth t) 0 0 (le_n _)) as [A S]; [lia|lia|].
  rewrite Nat.sub_diag in A. rewrite A, <- map_rev, rev_involutive in Nh. rewrite nth_error_map in Nh.
  destruct (nth_error (seq 0 (mt_depth t)) k) as [k'|] eqn:Q; [|discriminate]. cbn [option_map] in Nh.
  assert (Lk : k < mt_depth t) by (rewrite <- (seq_length (mt_depth t) 0); apply nth_error_Some; congruence).
  apply (nth_error_nth _ _ 0) in Q. rewrite seq_nth in Q by exact Lk. cbn [Nat.add] in Q. subst k'. injection Nh as <-.
  split; [exact Lk|split; [apply S, Lk|split; reflexivity]].
Qed.
Lemma width_small D : D <= 31 -> (2 ^ N.of_nat D < 2 ^ 256)%N.
Proof. intros L. apply N.pow_lt_mono_r; lia. Qed.

Lemma c120_shared : forall (H : Hasher) md src1 src2 rng1 rng2 t1 t2 x1 x2 y1 y2 pf1 pf2 k1 k2 h1 h2
  (valid1 : valid_source src1) (valid2 : valid_source src2)
  (made1 : try_commit src1 rng1 = Ret (Ok t1)) (made2 : try_commit src2 rng2 = Ret (Ok t2))
  (entropy1 : (mt_entropy t1 < 2 ^ 64)%N) (entropy2 : (mt_entropy t2 < 2 ^ 64)%N)
  (own1 : In (x1, y1) (ms_messages src1)) (own2 : In (x2, y2) (ms_messages src2))
  (proof1 : to_merkle_proof md (block_of_tree t1) x1 = Ret (Ok pf1)) (proof2 : to_merkle_proof md (block_of_tree t2) x2 = Ret (Ok pf2))
  (hash1 : nth_error (rev (mp_path pf1)) k1 = Some h1) (hash2 : nth_error (rev (mp_path pf2)) k2 = Some h2),
  (k1 = k2 /\ same_beside t1 (mp_pos pf1) t2 (mp_pos pf2) k1 -> h1 = h2) /\
  (h1 = h2 -> k1 = k2 /\ same_beside t1 (mp_pos pf1) t2 (mp_pos pf2) k1 \/ collision_in (tree_pre t1 ++ tree_pre t2)).
Proof.
  intros H md src1 src2 rng1 rng2 t1 t2 x1 x2 y1 y2 pf1 pf2 k1 k2 h1 h2 V1 V2 E1 E2 B1 B2 I1 I2 P1 P2 N1 N2.
  destruct (proof_hash _ _ _ _ _ _ _ _ _ V1 E1 I1 P1 N1) as (L1 & S1 & _ & ->).
  destruct (proof_hash _ _ _ _ _ _ _ _ _ V2 E2 I2 P2 N2) as (L2 & S2 & _ & ->).
  pose proof (gt_depth _ (try_commit_good _ _ _ V1 E1)) as D1. pose proof (gt_depth _ (try_commit_good _ _ _ V2 E2)) as D2. split.
  - intros [<- [[->|QD] Q]].
    + cbn [full_tree]. rewrite !held_hash. specialize (Q 0%N ltac:(reflexivity)). rewrite !N.add_0_r in Q. rewrite Q. reflexivity.
    + rewrite <- QD. apply part_eq, Q.
  - intros Q.
    assert (R : forall k o t, sub (mt_depth t) 0 k o -> mt_depth t <= 31 -> (o + 2 ^ N.of_nat k <= 2 ^ 32)%N).
    { intros k o t S D. apply sub_bounds in S as (_ & _ & S). assert (2 ^ N.of_nat (mt_depth t) <= 2 ^ 32)%N by (apply N.pow_le_mono_r; lia). lia. }
    apply (part_inj t1 t2 _ _ B1 B2 (width_small _ D1) (width_small _ D2)) in Q; [|lia|lia|eapply R; eassumption|eapply R; eassumption].
    destruct Q as [(Ek & Ed & Q)|C].
    + left. split; [exact Ek|]. subst k2. split; [|exact Q]. destruct Ed as [Ed|[Ed _]]; [left; exact Ed|right]. apply Nat2N.inj. apply (N.pow_inj_r 2); [lia|exact Ed].
    + right. destruct C as (x & y & Ix & Iy & X). exists x, y.
      assert (K : forall z, In z (part_strs t1 (2 ^ N.of_nat (mt_depth t1)) (mt_depth t1 - k1) k1 (first_beside (mp_pos pf1) k1) ++
        part_strs t2 (2 ^ N.of_nat (mt_depth t2)) (mt_depth t2 - k2) k2 (first_beside (mp_pos pf2) k2)) -> In z (tree_pre t1 ++ tree_pre t2)).
      { intros z Iz. apply in_app_or in Iz as [Iz|Iz]; apply in_or_app; [left|right]; eapply part_pre; eassumption. }
      auto.
Qed.

(** ** Consequences *)
Lemma beside_neighbour pos j b : (b <= 1)%N -> pos = (2 * j + b)%N -> first_beside pos 0 = (2 * j + (1 - b))%N.
Proof.
  intros Lb ->. unfold first_beside. change (2 ^ N.of_nat 0)%N with 1%N. rewrite N.div_1_r, N.mul_1_r, lxor1, N.odd_add, N.odd_mul.
  cbn [N.odd]. assert (b = 0 \/ b = 1)%N as [-> | ->] by lia; cbn; lia.
Qed.
Lemma side_holds src rng t p m x y : valid_source src -> try_commit src rng = Ret (Ok t) -> In (p, m) (ms_messages src) -> In (x, y) (ms_messages src) ->
  side_by_side t p x -> holds t (first_beside (s_pos x (mt_cofactor t) (mt_depth t)) 0) = inl (p, m).
Proof.
  intros V E Ip Ix (j & Q). pose proof (try_commit_good _ _ _ V E) as G. pose proof Ip as Ip'. rewrite <- (messages_kept src _ _ V E) in Ip'.
  pose proof (pos_cell _ _ _ G Ip') as C. cbv zeta in Q.
  assert (Ep : first_beside (s_pos x (mt_cofactor t) (mt_depth t)) 0 = s_pos p (mt_cofactor t) (mt_depth t)).
  { destruct Q as [[Q1 Q2]|[Q1 Q2]]; [rewrite (beside_neighbour _ j 1)|rewrite (beside_neighbour _ j 0)]; lia. }
  rewrite Ep. unfold holds, slot_of. unfold tcells in C. rewrite C. reflexivity.
Qed.

Lemma c120_neighbour : forall (H : Hasher) md src1 src2 rng1 rng2 t1 t2 p m1 m2 x y1 y2
  (valid1 : valid_source src1) (valid2 : valid_source src2)
  (made1 : try_commit src1 rng1 = Ret (Ok t1)) (made2 : try_commit src2 rng2 = Ret (Ok t2))
  (has1 : In (p, m1) (ms_messages src1)) (has2 : In (p, m2) (ms_messages src2))
  (own1 : In (x, y1) (ms_messages src1)) (own2 : In (x, y2) (ms_messages src2))
  (near1 : side_by_side t1 p x) (near2 : side_by_side t2 p x),
  exists pf1 pf2, to_merkle_proof md (block_of_tree t1) x = Ret (Ok pf1) /\ to_merkle_proof md (block_of_tree t2) x = Ret (Ok pf2) /\
    (m1 = m2 -> last (mp_path pf1) p = last (mp_path pf2) p) /\
    (last (mp_path pf1) p = last (mp_path pf2) p -> m1 = m2 \/ collision_in [s_leaf p m1; s_leaf p m2]).
Proof.
  intros H md src1 src2 rng1 rng2 t1 t2 p m1 m2 x y1 y2 V1 V2 E1 E2 Ip1 Ip2 Ix1 Ix2 S1 S2.
  assert (K : forall src rng t m y, valid_source src -> try_commit src rng = Ret (Ok t) -> In (p, m) (ms_messages src) -> In (x, y) (ms_messages src) ->
    side_by_side t p x -> exists pf, to_merkle_proof md (block_of_tree t) x = Ret (Ok pf) /\ last (mp_path pf) p = HASH (s_leaf p m)).
  { clear. intros src rng t m y V E Ip Ix S. pose proof (tree_proof_is md src rng t x y V E Ix) as P. cbv zeta in P.
    eexists. split; [exact P|]. set (pf := MProof _ _ _ _) in *.
    assert (L : nth_error (rev (mp_path pf)) 0 = Some (last (mp_path pf) p)).
    { assert (Nn : mp_path pf <> []).
      { intros Q. apply (f_equal (@length _)) in Q. unfold pf in Q. cbn [mp_path] in Q. unfold tree_aside in Q. rewrite aside_length in Q. cbn [length] in Q.
        destruct S as (j & S). cbv zeta in S. rewrite Q in S. pose proof (try_commit_good _ _ _ V E) as G.
        pose proof (proj2 (pos_spec p (mt_cofactor t) 0 ltac:(lia))) as B1. pose proof (proj2 (pos_spec x (mt_cofactor t) 0 ltac:(lia))) as B2.
        change (2 ^ N.of_nat 0)%N with 1%N in *. lia. }
      rewrite (app_removelast_last p Nn) at 1. rewrite rev_app_distr. reflexivity. }
    destruct (proof_hash _ _ _ _ _ _ _ _ _ V E Ix P L) as (_ & _ & Ep & ->). cbn [full_tree]. rewrite held_hash, Ep.
    rewrite (side_holds _ _ _ _ _ _ _ V E Ip Ix S). reflexivity. }
  destruct (K _ _ _ _ _ V1 E1 Ip1 Ix1 S1) as (pf1 & P1 & R1). destruct (K _ _ _ _ _ V2 E2 Ip2 Ix2 S2) as (pf2 & P2 & R2).
  exists pf1, pf2. rewrite R1, R2. split; [exact P1|split; [exact P2|split; [intros ->; reflexivity|]]]. intros Q.
  destruct (b32_eq_dec m1 m2) as [Em|Nm]; [left; exact Em|right]. exists (s_leaf p m1), (s_leaf p m2).
  split; [left; reflexivity|split; [right; left; reflexivity|split; [|exact Q]]]. intros X. apply s_leaf_inj in X as [_ X]. contradiction.
Qed.

Lemma c120_unlinked : forall (H : Hasher) md src1 src2 rng1 rng2 t1 t2 x1 x2 y1 y2 pf1 pf2 k1 k2 h i
  (valid1 : valid_source src1) (valid2 : valid_source src2)
  (made1 : try_commit src1 rng1 = Ret (Ok t1)) (made2 : try_commit src2 rng2 = Ret (Ok t2))
  (entropy1 : (mt_entropy t1 < 2 ^ 64)%N) (entropy2 : (mt_entropy t2 < 2 ^ 64)%N)
  (own1 : In (x1, y1) (ms_messages src1)) (own2 : In (x2, y2) (ms_messages src2))
  (proof1 : to_merkle_proof md (block_of_tree t1) x1 = Ret (Ok pf1)) (proof2 : to_merkle_proof md (block_of_tree t2) x2 = Ret (Ok pf2))
  (hash1 : nth_error (rev (mp_path pf1)) k1 = Some h) (hash2 : nth_error (rev (mp_path pf2)) k2 = Some h)
  (there : beside (mp_pos pf1) k1 i) (vacant : slot_of t1 i = None),
  (mt_entropy t1 = mt_entropy t2 /\ k1 = k2 /\ first_beside (mp_pos pf1) k1 = first_beside (mp_pos pf2) k2) \/
  collision_in (tree_pre t1 ++ tree_pre t2).
Proof.
  intros H md src1 src2 rng1 rng2 t1 t2 x1 x2 y1 y2 pf1 pf2 k1 k2 h i V1 V2 E1 E2 B1 B2 I1 I2 P1 P2 N1 N2 T Va.
  destruct (proj2 (c120_shared H md src1 src2 rng1 rng2 t1 t2 x1 x2 y1 y2 pf1 pf2 k1 k2 h h V1 V2 E1 E2 B1 B2 I1 I2 P1 P2 N1 N2) eq_refl) as [[<- [_ Q]]|C];
    [left|right; exact C].
  apply beside_range in T. change (sib (mp_pos pf1) k1) with (first_beside (mp_pos pf1) k1) in T.
  specialize (Q (i - first_beside (mp_pos pf1) k1)%N ltac:(lia)).
  replace (first_beside (mp_pos pf1) k1 + (i - first_beside (mp_pos pf1) k1))%N with i in Q by lia.
  unfold holds in Q. rewrite Va in Q. destruct (slot_of t2 _); [discriminate|]. injection Q as Qe Qi. split; [exact Qe|split; [reflexivity|lia]].
Qed.

Lemma holds_apart t i j : good_tree t -> holds t i = holds t j -> i = j.
Proof.
  intros G. unfold holds, slot_of. destruct (om_get N.ltb i (mt_map t)) as [[p m]|] eqn:Qi, (om_get N.ltb j (mt_map t)) as [[p' m']|] eqn:Qj;
    intros E; try discriminate; injection E; [|auto]. intros <- <-. apply (om_get_In N.ltb) in Qi, Qj.
  apply (gt_map _ G) in Qi as [_ ->], Qj as [_ ->]. reflexivity.
Qed.
Lemma c120_within : forall (H : Hasher) md src rng t x1 x2 y1 y2 pf1 pf2 k1 k2 h1 h2
  (valid : valid_source src) (made : try_commit src rng = Ret (Ok t)) (entropy : (mt_entropy t < 2 ^ 64)%N)
  (own1 : In (x1, y1) (ms_messages src)) (own2 : In (x2, y2) (ms_messages src))
  (proof1 : to_merkle_proof md (block_of_tree t) x1 = Ret (Ok pf1)) (proof2 : to_merkle_proof md (block_of_tree t) x2 = Ret (Ok pf2))
  (hash1 : nth_error (rev (mp_path pf1)) k1 = Some h1) (hash2 : nth_error (rev (mp_path pf2)) k2 = Some h2),
  (k1 = k2 /\ (mp_pos pf1 / 2 ^ N.of_nat k1 = mp_pos pf2 / 2 ^ N.of_nat k1)%N -> h1 = h2) /\
  (h1 = h2 -> k1 = k2 /\ (mp_pos pf1 / 2 ^ N.of_nat k1 = mp_pos pf2 / 2 ^ N.of_nat k1)%N \/ collision_in (tree_pre t)).
Proof.
  intros H md src rng t x1 x2 y1 y2 pf1 pf2 k1 k2 h1 h2 V E B I1 I2 P1 P2 N1 N2.
  destruct (c120_shared H md src src rng rng t t x1 x2 y1 y2 pf1 pf2 k1 k2 h1 h2 V V E E B B I1 I2 P1 P2 N1 N2) as [A C]. split.
  - intros [<- Q]. apply A. split; [reflexivity|]. split; [right; reflexivity|]. intros i _. unfold first_beside. rewrite Q. reflexivity.
  - intros Q. destruct (C Q) as [[<- [_ S]]|K].
    + left. split; [reflexivity|]. specialize (S 0%N (pow_pos k1)). rewrite !N.add_0_r in S.
      apply (holds_apart t _ _ (try_commit_good _ _ _ V E)) in S. unfold first_beside in S.
      apply N.mul_cancel_r in S; [|apply N.pow_nonzero; lia].
      rewrite <- (N.lxor_0_r (mp_pos pf1 / _)), <- (N.lxor_0_r (mp_pos pf2 / _)), <- (N.lxor_nilpotent 1), <- !N.lxor_assoc, S. reflexivity.
    + right. destruct K as (x & y & Ix & Iy & K). exists x, y. apply in_app_or in Ix, Iy. tauto.
Qed.
