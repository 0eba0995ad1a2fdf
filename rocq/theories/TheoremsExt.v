(** Further properties (restated in PropExt.v). *)
From Coq Require Import Permutation Sorting.Sorted.
From Verif Require Import Base BaseFacts OrdMap OrdMapFacts Sha256 Strict Digest Merkle MpcAtoms MpcTree MpcBlock Engine Seals.
From Verif Require Import SpecHash SpecSha SpecTree SpecCommit SpecFull SpecValid SpecDerived SpecBlock SpecCodec SpecLayout SpecEngine SpecMisc.
From Verif Require Import HashFacts TreeFacts ConcealProofs BlockInv PathProofs MergeProofs MpcTreeProofs DerivedProofs CodecProofs MiscProofs.
From Verif Require Import ShaProofs UniqueProofs TheoremsMpc TheoremsBlock TheoremsMisc TheoremsMore.
Local Open Scope nat_scope.

(** ** C59 *)
Lemma c59_fips : forall x d, (exists calls, sha_run x calls d) <-> d = b32 (sha256 x).
Proof.
  intros x d. split.
  - intros [calls R]. destruct (sha_runs x) as [calls' R']. exact (proj2 (sha_run_unique _ _ _ _ _ R R')).
  - intros ->. apply sha_runs.
Qed.
Lemma c59_reduction : forall L (fit : Forall short L),
  @collision_in sha256 L -> compress_collision_in L.
Proof. intros L F C. exact (sha_collision_lifts L F C). Qed.

Lemma small_short x k : length x <= k -> (N.of_nat k < 2 ^ 61)%N -> short x.
Proof. intros L K. unfold short. lia. Qed.
Lemma s_pre_length {H : Hasher} tag d : length (s_pre tag d) = 64 + length d.
Proof. unfold s_pre. rewrite !app_length, !b32_length. lia. Qed.
Lemma ppre_short {H : Hasher} W d t : Forall short (ppre W d t).
Proof.
  revert d; induction t as [h|p m|l IHl r IHr]; intros d; cbn [ppre].
  - constructor.
  - constructor; [|constructor]. apply (small_short _ 200); [|reflexivity].
    unfold s_leaf. rewrite s_pre_length. cbn [length]. rewrite app_length, !b32_length. lia.
  - constructor; [|apply Forall_app; split; [apply IHl|apply IHr]].
    apply (small_short _ 200); [|reflexivity].
    unfold s_branch. rewrite s_pre_length. cbn [length]. rewrite !app_length, !b32_length, le_length. lia.
Qed.
Lemma pcommit_pre_short {H : Hasher} D c t : Forall short (pcommit_pre D c t).
Proof.
  unfold pcommit_pre. cbn [app]. repeat constructor.
  - apply (small_short _ 200); [|reflexivity]. unfold s_commit. rewrite s_pre_length. cbn [length].
    rewrite !app_length, b32_length, le_length. lia.
  - apply ppre_short.
Qed.
Lemma c59_one_message : forall md1 md2 pf1 pf2 pid m1 m2 c
  (valid1 : valid_proof pf1) (valid2 : valid_proof pf2)
  (conv1 : @convolve sha256 md1 pf1 pid m1 = Ret (Ok c)) (conv2 : @convolve sha256 md2 pf2 pid m2 = Ret (Ok c)),
  m1 = m2 \/ compress_collision_in (@proof_pre sha256 pf1 pid m1 ++ @proof_pre sha256 pf2 pid m2).
Proof.
  intros md1 md2 pf1 pf2 pid m1 m2 c V1 V2 C1 C2.
  destruct (c01_one_message sha256 md1 md2 pf1 pf2 pid m1 m2 c V1 V2 C1 C2) as [E|K]; [left; exact E|right].
  apply c59_reduction; [|exact K]. apply Forall_app. split; apply pcommit_pre_short.
Qed.

(** ** C60 *)
Lemma convolve_inv {H : Hasher} md pf pid msg c : valid_proof pf -> convolve md pf pid msg = Ret (Ok c) ->
  length (mp_path pf) <= 31 /\ (mp_cofactor pf < 2 ^ 16)%N /\
  mp_pos pf = protocol_id_pos pid (mp_cofactor pf) (length (mp_path pf)) /\
  c = pcommit (length (mp_path pf)) (mp_cofactor pf) (proof_tree pf pid msg).
Proof.
  intros [_ [V _]] E.
  destruct (le_lt_dec (length (mp_path pf)) 31) as [L|L]; [|rewrite convolve_long in E by lia; discriminate].
  rewrite convolve_spec in E by exact L. cbv zeta in E.
  destruct (_ =? _)%N eqn:P; [|discriminate]. injection E as E. apply N.eqb_eq in P. auto.
Qed.
Lemma method_eq (a b : method) : a = b.
Proof. destruct a, b. reflexivity. Qed.
Lemma c60_one_proof : forall (H : Hasher) md1 md2 pf1 pf2 pid m1 m2 c
  (valid1 : valid_proof pf1) (valid2 : valid_proof pf2)
  (conv1 : convolve md1 pf1 pid m1 = Ret (Ok c)) (conv2 : convolve md2 pf2 pid m2 = Ret (Ok c)),
  (pf1 = pf2 /\ m1 = m2) \/ collision_in (proof_pre pf1 pid m1 ++ proof_pre pf2 pid m2).
Proof.
  intros H md1 md2 pf1 pf2 pid m1 m2 c V1 V2 C1 C2.
  destruct (convolve_inv _ _ _ _ _ V1 C1) as [L1 [B1 [P1 E1]]]. destruct (convolve_inv _ _ _ _ _ V2 C2) as [L2 [B2 [P2 E2]]].
  destruct (pcommit_inj (length (mp_path pf1)) (length (mp_path pf2)) (mp_cofactor pf1) (mp_cofactor pf2)
             (proof_tree pf1 pid m1) (proof_tree pf2 pid m2)) as [[ED [EC C]]|C]; try assumption.
  - congruence.
  - left. unfold proof_tree in C. assert (PP : mp_pos pf1 = mp_pos pf2) by congruence. rewrite PP in C.
    destruct (path_compat_path _ _ _ _ _ _ _ _ _ ED C) as [EP [_ EM]]. split; [|exact EM].
    destruct pf1, pf2. cbn in *. subst. f_equal. apply method_eq.
  - right. exact C.
Qed.
Lemma path_tree_leaf path : forall pos p m D d o, exists q, In (q, (p, m)) (pleaves_at D d o (path_tree path pos p m)).
Proof.
  induction path as [|h r IH]; intros pos p m D d o.
  - exists o. left. reflexivity.
  - cbn [path_tree]. destruct (_ <=? pos)%N; cbn [pleaves_at].
    + destruct (IH (pos - 2 ^ N.of_nat (length r))%N p m D (S d) (o + 2 ^ N.of_nat (D - S d))%N) as [q Q].
      exists q. exact Q.
    + destruct (IH pos p m D (S d) o) as [q Q]. exists q. apply in_or_app. left. exact Q.
Qed.
Lemma c60_vouches : forall (H : Hasher) md md' pf pid msg src rng t c
  (validp : valid_proof pf) (valid : valid_source src) (made : try_commit src rng = Ret (Ok t))
  (conv : convolve md pf pid msg = Ret (Ok c)) (tree_id : tree_commit_id md' t = Ret c),
  (In (pid, msg) (ms_messages src) /\ to_merkle_proof md (block_of_tree t) pid = Ret (Ok pf)) \/
  collision_in (proof_pre pf pid msg ++ tree_pre t).
Proof.
  intros H md md' pf pid msg src rng t c Vp V E C It. pose proof (try_commit_good _ _ _ V E) as G.
  destruct (c04_placement _ _ _ V E) as [_ [_ [Em _]]].
  destruct (convolve_inv _ _ _ _ _ Vp C) as [L [B [P Ec]]].
  rewrite (tree_commit_any md' t (gt_depth _ G)) in It. injection It as It.
  assert (EQ : pcommit (length (mp_path pf)) (mp_cofactor pf) (proof_tree pf pid msg) =
               pcommit (mt_depth t) (mt_cofactor t) (tree_full t)) by congruence.
  assert (Gc' : (mt_cofactor t < 2 ^ 16)%N).
  { assert (B16 : (500 < 2 ^ 16)%N) by reflexivity. pose proof (gt_cofactor _ G). lia. }
  set (b := MBlock (mp_method pf) (length (mp_path pf)) (mp_cofactor pf) (flatten 0 (proof_tree pf pid msg)) None).
  destruct (block_vouches b t (proof_tree pf pid msg) G) as [[_ [_ K]]|K];
    cbn [b mb_depth mb_cofactor mb_cross_section]; try assumption; try reflexivity.
  { apply pwf_loose_of, path_tree_pwf. reflexivity. }
  2: { right. exact K. }
  destruct (pcommit_inj _ _ _ _ _ _ L (gt_depth _ G) B Gc' EQ) as [[ED [EC PC]]|PC].
  2: { right. eapply coll_incl; [|exact PC]. intros x HI. unfold tree_pre. rewrite !in_app_iff in *. tauto. }
  left. destruct (path_tree_leaf (mp_path pf) (mp_pos pf) pid msg (length (mp_path pf)) 0 0%N) as [q Q].
  destruct (K q pid msg Q) as [M _]. split; [rewrite <- Em; exact M|].
  pose proof (proj2 (tree_full_pleaves t pid msg G) M) as Hl.
  destruct (to_merkle_proof_ok md (block_of_tree t) (tree_full t) pid msg (block_of_tree_wf t G) (tree_full_placed t G) Hl)
    as [path [Lp [ER ET]]]. change (mb_depth (block_of_tree t)) with (mt_depth t) in *.
  change (mb_cofactor (block_of_tree t)) with (mt_cofactor t) in *.
  pose proof (prestrict_view (mem [pid]) (width_of (mt_depth t)) 0 (tree_full t)) as PV.
  rewrite ER in PV. unfold proof_tree in PC. rewrite P, ED, EC in PC.
  destruct (path_compat_view _ _ _ _ _ _ _ _ _ _ (eq_trans ED (eq_sym Lp)) PC PV) as [EP _].
  rewrite ET. do 2 f_equal. destruct pf as [me po co pa]. cbn in *. subst. f_equal; [apply method_eq|congruence].
Qed.

(** ** C61 *)
Lemma c61_maximal : forall (H : Hasher) md b1 b2 t1 t2 c
  (wf1 : block_tree b1 t1) (wf2 : block_tree b2 t2) (max1 : pmaximal t1) (max2 : pmaximal t2)
  (id1 : block_commit_id md b1 = Ret c) (id2 : block_commit_id md b2 = Ret c)
  (same : forall x, In x (pleaves_at (mb_depth b1) 0 0 t1) <-> In x (pleaves_at (mb_depth b2) 0 0 t2)),
  (mb_method b1 = mb_method b2 /\ mb_depth b1 = mb_depth b2 /\ mb_cofactor b1 = mb_cofactor b2 /\
   mb_cross_section b1 = mb_cross_section b2) \/
  collision_in (pcommit_pre (mb_depth b1) (mb_cofactor b1) t1 ++ pcommit_pre (mb_depth b2) (mb_cofactor b2) t2).
Proof.
  intros H md b1 b2 t1 t2 c W1 W2 M1 M2 I1 I2 S. pose proof W1 as [D1 [C1 [X1 P1]]]. pose proof W2 as [D2 [C2 [X2 P2]]].
  rewrite (wf_commit md b1 t1 W1) in I1. rewrite (wf_commit md b2 t2 W2) in I2. injection I1 as I1. injection I2 as I2.
  destruct (pcommit_inj _ _ _ _ t1 t2 D1 D2 C1 C2) as [[ED [EC PC]]|K]; [congruence|left|right; exact K].
  split; [apply method_eq|]. split; [exact ED|]. split; [exact EC|]. rewrite X1, X2. f_equal.
  rewrite <- ED in P2, S. exact (maximal_unique _ (mb_depth b1) t1 t2 0 0 PC M1 M2 P1 P2 S).
Qed.
Lemma c61_conceal : forall (H : Hasher) md b1 b2 t1 t2 c ids b1' n1 b2' n2
  (wf1 : block_tree b1 t1) (wf2 : block_tree b2 t2)
  (placed1 : well_placed (mb_depth b1) (mb_cofactor b1) t1) (placed2 : well_placed (mb_depth b2) (mb_cofactor b2) t2)
  (id1 : block_commit_id md b1 = Ret c) (id2 : block_commit_id md b2 = Ret c)
  (done1 : conceal_except md b1 ids = Ret (b1', Ok n1)) (done2 : conceal_except md b2 ids = Ret (b2', Ok n2)),
  b1' = b2' \/
  collision_in (pcommit_pre (mb_depth b1) (mb_cofactor b1) t1 ++ pcommit_pre (mb_depth b2) (mb_cofactor b2) t2).
Proof.
  intros H md b1 b2 t1 t2 c ids b1' n1 b2' n2 W1 W2 PL1 PL2 I1 I2 E1 E2.
  pose proof W1 as [D1 [C1 [X1 P1]]]. pose proof W2 as [D2 [C2 [X2 P2]]].
  pose proof (conceal_ok_known _ _ _ _ _ _ W1 E1) as K1. pose proof (conceal_ok_known _ _ _ _ _ _ W2 E2) as K2.
  destruct (wf_conceal md b1 t1 ids W1 K1) as [Q1 _]. destruct (wf_conceal md b2 t2 ids W2 K2) as [Q2 _].
  rewrite E1 in Q1. rewrite E2 in Q2. injection Q1 as -> _. injection Q2 as -> _.
  rewrite (wf_commit md b1 t1 W1) in I1. rewrite (wf_commit md b2 t2 W2) in I2. injection I1 as I1. injection I2 as I2.
  destruct (pcommit_inj _ _ _ _ t1 t2 D1 D2 C1 C2) as [[ED [EC PC]]|K]; [congruence|left|right; exact K].
  rewrite (method_eq (mb_method b1) (mb_method b2)), ED, EC. f_equal. f_equal.
  rewrite <- ED in P2, PL2 |- *. rewrite <- EC in PL2.
  assert (TR : forall W a b d, phash W d a = phash W d b -> pcompat W d a b ->
    pcompat W d (prestrict (mem ids) W d a) (prestrict (mem ids) W d b)).
  { clear. intros W a. induction a as [h|p m|l IHl r IHr]; intros b d EH C.
    - cbn [prestrict]. cbn [pcompat]. rewrite prestrict_phash. exact EH.
    - destruct b as [h|p' m'|l' r']; [| |destruct C].
      + cbn in C. cbn. destruct (mem ids p); cbn; congruence.
      + cbn in C. destruct C as [-> ->]. cbn. destruct (mem ids p'); cbn; auto.
    - destruct b as [h|p' m'|l' r']; [|destruct C|].
      + cbn [prestrict]. destruct (existsb _ _); cbn [pcompat phash]; [rewrite !prestrict_phash; symmetry; exact EH|].
        exact EH.
      + cbn [pcompat] in C. destruct C as [C1 C2].
        pose proof (pcompat_phash _ _ _ _ C1) as H1. pose proof (pcompat_phash _ _ _ _ C2) as H2.
        cbn [prestrict]. destruct (existsb _ (pleaves (PBr l r))), (existsb _ (pleaves (PBr l' r'))).
        * cbn [pcompat]. split; [apply IHl|apply IHr]; assumption.
        * cbn [pcompat phash]. rewrite !prestrict_phash. congruence.
        * cbn [pcompat phash]. rewrite !prestrict_phash. congruence.
        * cbn [pcompat phash]. congruence. }
  unfold width_of.
  apply (maximal_unique (2 ^ N.of_nat (mb_depth b1)) (mb_depth b1) _ _ 0 0%N).
  - apply TR; [apply pcompat_phash; exact PC|exact PC].
  - apply prestrict_maximal.
  - apply prestrict_maximal.
  - apply prestrict_pwf, P1.
  - apply prestrict_pwf, P2.
  - assert (KL : forall b t, block_tree b t -> (forall p, In p ids -> In p (known_protocol_ids b)) ->
      forall p, mem ids p = true -> exists q m, In (q, (p, m)) (pleaves_at (mb_depth b1) 0 0 t)).
    { intros b t Wt Kb p Mp. apply mem_In in Mp. apply Kb in Mp. rewrite (wf_known b t Wt) in Mp.
      rewrite <- (pleaves_at_leaves (mb_depth b1) 0 0 t), map_map in Mp. apply in_map_iff in Mp as [[q [p' m]] [Q I]].
      cbn in Q. subst p'. exists q, m. exact I. }
    intros [q [p m]]. rewrite !prestrict_leaves_at. split; intros [I Mp]; (split; [|exact Mp]).
    + destruct (KL b2 t2 W2 K2 p Mp) as [q' [m' I']].
      pose proof (PL1 _ _ _ I) as Z1. pose proof (PL2 _ _ _ I') as Z2. subst q'. rewrite <- Z1 in I'.
      pose proof (compat_leaf_at _ _ _ _ _ _ _ _ _ PC P1 P2 I I') as Q. rewrite Q. exact I'.
    + destruct (KL b1 t1 W1 K1 p Mp) as [q' [m' I']].
      pose proof (PL2 _ _ _ I) as Z1. pose proof (PL1 _ _ _ I') as Z2. subst q'. rewrite <- Z1 in I'.
      pose proof (compat_leaf_at _ _ _ _ _ _ _ _ _ PC P1 P2 I' I) as Q. rewrite <- Q. exact I'.
Qed.

(** ** C62 *)
Lemma get_full t : good_tree t -> N.of_nat (length (mt_messages t)) = (2 ^ N.of_nat (mt_depth t))%N ->
  forall pos, (pos < 2 ^ N.of_nat (mt_depth t))%N -> om_get N.ltb pos (mt_map t) <> None.
Proof.
  intros G F pos P N. apply (om_get_none N.ltb) in N; [|exact (gt_map_sorted _ G)].
  pose proof (NoDup_bound (pos :: map fst (mt_map t)) (2 ^ N.of_nat (mt_depth t))) as B.
  cbn [length] in B. rewrite map_length, (gt_map_length _ G) in B.
  assert (X : (N.of_nat (S (length (mt_messages t))) <= 2 ^ N.of_nat (mt_depth t))%N).
  { apply B.
    - constructor; [exact N|]. apply (om_sorted_NoDup N.ltb). exact (gt_map_sorted _ G).
    - intros x [<-|X]; [exact P|]. apply in_map_iff in X as [[q [p m]] [<- X]]. cbn [fst].
      apply (gt_map _ G) in X as [_ ->]. destruct (pos_spec p (mt_cofactor t) (mt_depth t) (gt_depth _ G)) as [<- Q]. exact Q. }
  lia.
Qed.
Lemma get_free t : good_tree t -> (N.of_nat (length (mt_messages t)) < 2 ^ N.of_nat (mt_depth t))%N ->
  exists pos, (pos < 2 ^ N.of_nat (mt_depth t))%N /\ om_get N.ltb pos (mt_map t) = None.
Proof.
  intros G F.
  destruct (existsb (fun pos => match om_get N.ltb pos (mt_map t) with None => true | _ => false end)
                    (N_range (2 ^ N.of_nat (mt_depth t)))) eqn:E.
  - apply existsb_exists in E as [pos [I E]]. apply N_range_In in I. exists pos. split; [exact I|].
    destruct (om_get _ _ _); [discriminate|reflexivity].
  - exfalso. assert (I : incl (N_range (2 ^ N.of_nat (mt_depth t))) (map fst (mt_map t))).
    { intros pos HI. destruct (om_get N.ltb pos (mt_map t)) as [v|] eqn:Q.
      - apply (om_get_In N.ltb) in Q. apply in_map_iff. exists (pos, v). auto.
      - exfalso. apply Bool.not_true_iff_false in E. apply E, existsb_exists. exists pos. rewrite Q. auto. }
    apply NoDup_incl_length in I.
    + unfold N_range in I. rewrite !map_length, seq_length, (gt_map_length _ G) in I. lia.
    + unfold N_range. apply FinFun.Injective_map_NoDup; [intros x y; apply Nat2N.inj|apply seq_NoDup].
Qed.
Lemma c62_full : forall (H : Hasher) md method min_depth msgs s1 s2 rng1 rng2 t1 t2
  (valid1 : valid_source (MultiSource method min_depth msgs s1)) (valid2 : valid_source (MultiSource method min_depth msgs s2))
  (made1 : try_commit (MultiSource method min_depth msgs s1) rng1 = Ret (Ok t1))
  (made2 : try_commit (MultiSource method min_depth msgs s2) rng2 = Ret (Ok t2))
  (full : (N.of_nat (length msgs) = 2 ^ N.of_nat (mt_depth t1))%N),
  tree_commit_id md t1 = tree_commit_id md t2.
Proof.
  intros H md mth d msgs s1 s2 rng1 rng2 t1 t2 V1 V2 E1 E2 F.
  destruct (c54_shape _ _ _ _ _ _ _ _ _ V1 V2 E1 E2) as [ED [EC [EM [EP _]]]].
  pose proof (try_commit_good _ _ _ V1 E1) as G1. pose proof (try_commit_good _ _ _ V2 E2) as G2.
  destruct (c04_placement _ _ _ V1 E1) as [_ [_ [Em _]]]. cbn [ms_messages] in Em. rewrite <- Em in F.
  rewrite (tree_commit_any md t1 (gt_depth _ G1)), (tree_commit_any md t2 (gt_depth _ G2)), <- ED, <- EC.
  do 2 f_equal. unfold tree_full. rewrite <- ED.
  assert (K : forall k o, (o + 2 ^ N.of_nat k <= 2 ^ N.of_nat (mt_depth t1))%N -> full_tree k o (slot t1) = full_tree k o (slot t2)).
  { induction k as [|k IH]; intros o L; cbn [full_tree].
    - unfold slot. change (2 ^ N.of_nat 0)%N with 1%N in L. rewrite <- EP.
      pose proof (get_full t1 G1 F o ltac:(lia)) as N. destruct (om_get N.ltb o (mt_map t1)) as [[p m]|]; [reflexivity|congruence].
    - rewrite Nat2N.inj_succ, N.pow_succ_r' in L. rewrite !IH by lia. reflexivity. }
  apply K. lia.
Qed.
Lemma c62_blinded : forall (H : Hasher) md method min_depth msgs e1 e2 rng1 rng2 t1 t2 c
  (valid1 : valid_source (MultiSource method min_depth msgs (Some e1)))
  (valid2 : valid_source (MultiSource method min_depth msgs (Some e2)))
  (made1 : try_commit (MultiSource method min_depth msgs (Some e1)) rng1 = Ret (Ok t1))
  (made2 : try_commit (MultiSource method min_depth msgs (Some e2)) rng2 = Ret (Ok t2))
  (free : (N.of_nat (length msgs) < 2 ^ N.of_nat (mt_depth t1))%N)
  (id1 : tree_commit_id md t1 = Ret c) (id2 : tree_commit_id md t2 = Ret c),
  e1 = e2 \/ collision_in (tree_pre t1 ++ tree_pre t2).
Proof.
  intros H md mth d msgs e1 e2 rng1 rng2 t1 t2 c V1 V2 E1 E2 F I1 I2.
  pose proof (try_commit_good _ _ _ V1 E1) as G1. pose proof (try_commit_good _ _ _ V2 E2) as G2.
  destruct (c04_placement _ _ _ V1 E1) as [_ [_ [Em _]]]. cbn [ms_messages] in Em. rewrite <- Em in F.
  assert (ENT : forall mth d msgs e rng t, try_commit (MultiSource mth d msgs (Some e)) rng = Ret (Ok t) -> mt_entropy t = e).
  { clear. intros mth d msgs e rng t. unfold try_commit. cbn [ms_messages ms_min_depth ms_static_entropy ms_method].
    destruct (_ && _); [discriminate|]. destruct (_ <? _)%N; [discriminate|]. cbn [bind].
    destruct (commit_loop 32 msgs d 1) as [[[[d' c'] m']|er]|]; try discriminate. cbn [bind].
    intros E. injection E as <-. reflexivity. }
  rewrite tree_commit_any in I1, I2 by (apply gt_depth; assumption).
  destruct (slots_binding t1 t2) as [[_ [_ K]]|K]; try (apply gt_depth; assumption).
  - assert (B16 : (500 < 2 ^ 16)%N) by reflexivity. pose proof (gt_cofactor _ G1). lia.
  - assert (B16 : (500 < 2 ^ 16)%N) by reflexivity. pose proof (gt_cofactor _ G2). lia.
  - rewrite (ENT _ _ _ _ _ _ E1). destruct V1 as [_ [_ [_ V1]]]. exact V1.
  - rewrite (ENT _ _ _ _ _ _ E2). destruct V2 as [_ [_ [_ V2]]]. exact V2.
  - congruence.
  - left. destruct (get_free t1 G1 F) as [pos [P N]]. destruct (K pos P) as [_ Q]. specialize (Q N).
    rewrite (ENT _ _ _ _ _ _ E1), (ENT _ _ _ _ _ _ E2) in Q. exact Q.
  - right. exact K.
Qed.
Lemma c62_single : forall (H : Hasher) md method pid msg entropy rng e
  (entropy_known : match entropy with Some x => Some x | None => rng end = Some e),
  exists t, try_commit (MultiSource method 0 [(pid, msg)] entropy) rng = Ret (Ok t) /\
    mt_depth t = 0 /\ mt_cofactor t = 0%N /\ mt_entropy t = e /\
    tree_commit_id md t = Ret (HASH (s_commit 0 0 (HASH (s_leaf pid msg)))).
Proof.
  intros H md mth pid msg ent rng e EN. exists (MTree mth 0 e 0 [(pid, msg)] [(0%N, (pid, msg))]).
  assert (P0 : protocol_id_pos pid 0 0 = 0%N).
  { unfold protocol_id_pos. change (N.max (width_of 0 - 0) 1)%N with 1%N. rewrite N.mod_1_r. reflexivity. }
  split; [|split; [reflexivity|split; [reflexivity|split; [reflexivity|]]]].
  - unfold try_commit. cbn [ms_messages ms_min_depth ms_static_entropy ms_method length].
    change ((0 =? 0) && (1 =? 0)) with false. cbv iota. change (2 ^ 31 <? N.of_nat 1)%N with false. cbv iota.
    assert (L : commit_loop 32 [(pid, msg)] 0 1 = Ret (Ok (0, 0%N, [(0%N, (pid, msg))]))).
    { cbn [commit_loop length]. change (N.of_nat 1 <=? width_of 0)%N with true. cbv iota.
      change (N_range (N.min 1 cofactor_attempts + 1)) with [0%N; 1%N]. cbn [try_cofactors place]. rewrite P0. reflexivity. }
    rewrite L. destruct ent as [x|]; [injection EN as ->; reflexivity|]. rewrite EN. reflexivity.
  - rewrite tree_commit_any by (cbn; lia). reflexivity.
Qed.

(** ** C63 *)
Lemma c63_complete : forall (H : Hasher) Seal Pub Cli PubId PubErr CliErr
    (P : seal_protocol Seal bytes32 Pub Cli bytes32 PubId PubErr CliErr)
    md (proof_of : Cli -> merkle_proof) src rng t c pid msg pf pub cli seals
  (valid : valid_source src) (made : try_commit src rng = Ret (Ok t)) (tree_id : tree_commit_id md t = Ret c)
  (client : forall w x y, convolve md (proof_of w) pid x = Ret (Ok y) -> sl_convolve P w x = Ok y)
  (anchored : sl_verify_commitment P pub c = Ok tt)
  (message : In (pid, msg) (ms_messages src))
  (extracted : to_merkle_proof md (block_of_tree t) pid = Ret (Ok pf)) (held : proof_of cli = pf)
  (included : forall s, In s seals -> sl_is_included P s msg (pub, cli) = true),
  verify_seals_closing P (witness_new pub cli) seals msg = Ok tt.
Proof.
  intros H Seal Pub Cli PubId PubErr CliErr P md pof src rng t c pid msg pf pub cli seals V E It CL AN M X HD IN.
  destruct (c02_every_message_has_proof H md src rng t pid msg V E M) as [pf' [c' [X' [It' [CV _]]]]].
  rewrite X in X'. injection X' as <-. rewrite It in It'. injection It' as <-. subst pf.
  apply c47_verdict. eapply sv_ok; [exact IN|apply CL; exact CV|exact AN].
Qed.
Lemma c63_sound : forall (H : Hasher) Seal Pub Cli PubId PubErr CliErr
    (P : seal_protocol Seal bytes32 Pub Cli bytes32 PubId PubErr CliErr)
    md md' (proof_of : Cli -> merkle_proof) src rng t c pid msg pub cli seals u
  (valid : valid_source src) (made : try_commit src rng = Ret (Ok t)) (tree_id : tree_commit_id md' t = Ret c)
  (client : forall w x y, sl_convolve P w x = Ok y -> convolve md (proof_of w) pid x = Ret (Ok y))
  (anchored : forall x v, sl_verify_commitment P pub x = Ok v -> x = c)
  (validp : valid_proof (proof_of cli))
  (closed : verify_seals_closing P (witness_new pub cli) seals msg = Ok u),
  (In (pid, msg) (ms_messages src) /\ to_merkle_proof md (block_of_tree t) pid = Ret (Ok (proof_of cli)) /\
   forall s, In s seals -> sl_is_included P s msg (pub, cli) = true) \/
  collision_in (proof_pre (proof_of cli) pid msg ++ tree_pre t).
Proof.
  intros H Seal Pub Cli PubId PubErr CliErr P md md' pof src rng t c pid msg pub cli seals u V E It CL AN VP CLOSED.
  apply closing_ok in CLOSED as [IN [x [C1 A1]]]. pose proof (AN _ _ A1) as EQ. subst x.
  destruct (c60_vouches H md md' (pof cli) pid msg src rng t c VP V E (CL _ _ _ C1) It) as [[M X]|K]; [left|right; exact K].
  auto.
Qed.

(** ** C64 *)
Lemma enc_u5 d : length (enc c_u5 d) = 1.
Proof. reflexivity. Qed.
Lemma enc_b32 h : length (enc c_b32 h) = 32.
Proof. apply b32_length. Qed.
Lemma flat_map_const {A} (f : A -> list byte) k l : (forall x, In x l -> length (f x) = k) -> length (flat_map f l) = k * length l.
Proof.
  induction l as [|x l IH]; intros E; [cbn; lia|]. cbn [flat_map length]. rewrite app_length, IH, E; [lia|left; reflexivity|].
  intros y Y. apply E. right. exact Y.
Qed.
Lemma c64_proof : forall pf, length (enc c_merkle_proof pf) = 8 + 32 * length (mp_path pf).
Proof.
  intros pf. cbn [c_merkle_proof c_iso enc c_pair c_vec c_method c_part c_byte c_le]. rewrite !app_length.
  rewrite (flat_map_const _ 32) by (intros; apply b32_length). rewrite !le_length. cbn [length fst snd]. lia.
Qed.
Lemma enc_nodes xs : length (flat_map (enc c_tree_node) xs) = 34 * length xs + 31 * length (known_leaves xs).
Proof.
  induction xs as [|[d h|p m] xs IH]; [reflexivity|..]; cbn [flat_map known_leaves length]; rewrite app_length, IH.
  - cbn. rewrite b32_length. lia.
  - cbn. rewrite app_length, !b32_length. lia.
Qed.
Lemma c64_block : forall b, length (enc c_merkle_block b) =
  (match mb_entropy b with None => 9 | Some _ => 17 end) +
  34 * length (mb_cross_section b) + 31 * length (known_leaves (mb_cross_section b)).
Proof.
  intros b. cbn [fst snd c_merkle_block c_iso enc c_pair c_vec c_method c_part c_byte c_le c_u5]. rewrite !app_length, enc_nodes, !le_length.
  cbn [length]. destruct (mb_entropy b); cbn [c_option c_iso c_sum enc c_le c_unit]; rewrite ?le_length; cbn [length]; rewrite ?le_length; lia.
Qed.
Lemma c64_tree : forall t, length (enc c_merkle_tree t) = 18 + 64 * length (mt_messages t) + 68 * length (mt_map t).
Proof.
  intros t. cbn [fst snd c_merkle_tree c_iso enc c_pair c_omap c_check c_vec c_method c_part c_byte c_le c_u5 c_b32]. rewrite !app_length, !le_length.
  rewrite (flat_map_const _ 64), (flat_map_const _ 68).
  - cbn [length]. lia.
  - intros [q [p m]] _. rewrite !app_length, le_length, !b32_length. reflexivity.
  - intros [p m] _. rewrite !app_length, !b32_length. reflexivity.
Qed.
Lemma c64_conceal : forall (H : Hasher) md b ids b' n
  (wf : wf_block b) (done : conceal_except md b ids = Ret (b', Ok n)),
  length (enc c_merkle_block b') + 31 * N.to_nat n <= length (enc c_merkle_block b).
Proof.
  intros H md b ids b' n W E. destruct (c11_count H md b ids b' n W E) as [L1 [L2 ->]].
  assert (EN : mb_entropy b' = None).
  { destruct W as [t B]. pose proof (conceal_ok_known md b t ids b' _ B E) as K.
    destruct (wf_conceal md b t ids B K) as [C _]. rewrite E in C. injection C as -> _. reflexivity. }
  rewrite !c64_block, EN, Nat2N.id. destruct (mb_entropy b); lia.
Qed.
Lemma c64_extracted : forall (H : Hasher) md src rng t pid pf
  (valid : valid_source src) (made : try_commit src rng = Ret (Ok t))
  (extracted : to_merkle_proof md (block_of_tree t) pid = Ret (Ok pf)),
  length (enc c_merkle_proof pf) = 8 + 32 * mt_depth t /\ length (enc c_merkle_proof pf) <= 1000.
Proof.
  intros H md src rng t pid pf V E X. pose proof (try_commit_good _ _ _ V E) as G.
  assert (L : length (mp_path pf) = mt_depth t).
  { destruct (in_dec b32_eq_dec pid (map fst (mt_messages t))) as [I|I].
    - apply in_map_iff in I as [[p m] [<- I]]. cbn [fst] in *.
      pose proof (proj2 (tree_full_pleaves t p m G) I) as Hl.
      destruct (to_merkle_proof_ok md (block_of_tree t) (tree_full t) p m (block_of_tree_wf t G) (tree_full_placed t G) Hl)
        as [path [Lp [_ ET]]]. rewrite X in ET. injection ET as ->. exact Lp.
    - exfalso. rewrite c10_proof_unknown in X; [discriminate X|exists (tree_full t); exact (block_of_tree_wf t G)|].
      rewrite (wf_known _ _ (block_of_tree_wf t G)). intros K. apply I. apply in_map_iff in K as [[p m] [<- K]].
      apply in_map_iff. exists (p, m). split; [reflexivity|]. apply (tree_full_pleaves t p m G). exact K. }
  rewrite c64_proof, L. pose proof (gt_depth _ G). split; [reflexivity|lia].
Qed.

(** ** further statements on C29, C34, C47, C48 *)
Lemma c29_methods : forall t b pid (u5t : mt_depth t <= 31) (u5b : mb_depth b <= 31),
  mt_protocol_id_pos t pid = (le_val pid mod N.max 1 (2 ^ N.of_nat (mt_depth t) - mt_cofactor t))%N /\
  mb_protocol_id_pos b pid = (le_val pid mod N.max 1 (2 ^ N.of_nat (mb_depth b) - mb_cofactor b))%N.
Proof. intros t b pid U1 U2. split; apply c29_positions; assumption. Qed.
Lemma c34_finish_layout : forall (H : Hasher) md tag fs e bss
  (fed : run md fs (engine_new tag) = Ret e) (bytes : Forall2 feeds fs bss),
  digest_finish (fst (finish_layout e)) = HASH (s_pre tag (concat bss)) /\
  Forall2 step_for fs (snd (finish_layout e)).
Proof.
  intros H md tag fs e bss R F. split; [exact (c34_digest H md tag fs e bss R F)|].
  exact (proj2 (c34_layout H md tag fs e R)).
Qed.
Lemma c47_set : forall Seal Msg Pub Cli Proof PubId PubErr CliErr
    (P : seal_protocol Seal Msg Pub Cli Proof PubId PubErr CliErr) pub cli seals seals' msg u
  (same : forall s, In s seals <-> In s seals'),
  verify_seals_closing P (witness_new pub cli) seals msg = Ok u <->
  verify_seals_closing P (witness_new pub cli) seals' msg = Ok u.
Proof.
  intros Seal Msg Pub Cli Proof PubId PubErr CliErr P pub cli.
  assert (A : forall seals seals' msg u, (forall s, In s seals <-> In s seals') ->
    verify_seals_closing P (witness_new pub cli) seals msg = Ok u -> verify_seals_closing P (witness_new pub cli) seals' msg = Ok u).
  { intros seals seals' msg u S V. apply c47_verdict in V. apply c47_verdict. inversion V; subst.
    eapply sv_ok; try eassumption. intros x X. apply S in X. auto. }
  intros seals seals' msg u S. split; apply A; [exact S|]. intros s. symmetry. apply S.
Qed.
Lemma c47_split : forall Seal Msg Pub Cli Proof PubId PubErr CliErr
    (P : seal_protocol Seal Msg Pub Cli Proof PubId PubErr CliErr) pub cli seals seals' msg u,
  verify_seals_closing P (witness_new pub cli) (seals ++ seals') msg = Ok u <->
  verify_seals_closing P (witness_new pub cli) seals msg = Ok u /\
  verify_seals_closing P (witness_new pub cli) seals' msg = Ok u.
Proof.
  intros Seal Msg Pub Cli Proof PubId PubErr CliErr P pub cli seals seals' msg u. rewrite !c47_verdict. split.
  - intros V. inversion V; subst. split; (eapply sv_ok; try eassumption; intros x X; auto using in_or_app).
  - intros [V V']. inversion V; subst. inversion V'; subst. eapply sv_ok; try eassumption.
    intros x X. apply in_app_or in X as [X|X]; auto.
Qed.
Lemma c48_merged : forall Seal Msg Pub PubId PubErr
    (P : seal_protocol Seal Msg Pub no_witness Msg PubId PubErr Empty_set) pub a b w seals msg
  (client : sl_convolve P = no_witness_convolve)
  (blind : forall s m p x y, sl_is_included P s m (p, x) = sl_is_included P s m (p, y))
  (merged : no_witness_merge a b = Ok w),
  no_witness_eq a w = true /\
  verify_seals_closing P (witness_new pub w) seals msg = verify_seals_closing P (witness_new pub b) seals msg.
Proof.
  intros Seal Msg Pub PubId PubErr P pub a b w seals msg C B M. split; [reflexivity|].
  unfold verify_seals_closing, witness_new. cbn [fst snd]. rewrite C.
  assert (X : check_included P (pub, w) seals msg = check_included P (pub, b) seals msg).
  { induction seals as [|s r IH]; [reflexivity|]. cbn [check_included]. rewrite (B s msg pub w b), IH. reflexivity. }
  rewrite X. reflexivity.
Qed.
