(** Further properties of trees, blocks and proofs (restated in PropMore.v). *)
From Coq Require Import Permutation Sorting.Sorted.
From Verif Require Import Base BaseFacts OrdMap OrdMapFacts Strict Digest Merkle MpcAtoms MpcTree MpcBlock Engine.
From Verif Require Import SpecHash SpecTree SpecCommit SpecFull SpecValid SpecDerived SpecBlock.
From Verif Require Import HashFacts TreeFacts ConcealProofs BlockInv PathProofs MergeProofs MpcTreeProofs DerivedProofs.
From Verif Require Import ModeProofs PrefixProofs PassProofs AvailProofs ExtractProofs CraftedProofs TheoremsMpc TheoremsBlock.
Local Open Scope nat_scope.

Lemma tree_commit_any {H : Hasher} md t : mt_depth t <= 31 ->
  tree_commit_id md t = Ret (pcommit (mt_depth t) (mt_cofactor t) (tree_full t)).
Proof.
  intros HD. unfold tree_commit_id, tree_conceal.
  change (block_commit_id md (block_of_tree t) = Ret (pcommit (mt_depth t) (mt_cofactor t) (tree_full t))).
  exact (block_commit_id_ok md (block_of_tree t) (tree_full t) HD (block_of_tree_flatten t) (pwf_loose_of _ _ _ (tree_full_pwf t))).
Qed.

(** ** C51 *)
Lemma c51_prefix : forall (H : Hasher) md b c
  (valid : valid_block b) (id : block_commit_id md b = Ret c),
  exists t rest, mb_cross_section b = flatten 0 t ++ rest /\ pwf_loose (mb_depth b) 0 t /\
    c = pcommit (mb_depth b) (mb_cofactor b) t /\ (md = Debug -> rest = []) /\
    forall t' rest', mb_cross_section b = flatten 0 t' ++ rest' -> pwf_loose (mb_depth b) 0 t' -> t' = t /\ rest' = rest.
Proof.
  intros H md b c [HD [Hc [_ [F _]]]] E. destruct (block_commit_prefix md b c HD F E) as [t [rest [X [W C]]]].
  assert (U : forall t' rest', mb_cross_section b = flatten 0 t' ++ rest' -> pwf_loose (mb_depth b) 0 t' -> t' = t /\ rest' = rest).
  { intros t' rest' X' W'. apply (flatten_prefix_unique (mb_depth b) 0); [apply pwf_loose_deep, W'|apply pwf_loose_deep, W|congruence]. }
  exists t, rest. split; [exact X|]. split; [exact W|]. split; [exact C|]. split; [|exact U].
  intros ->. unfold block_commit_id in E. apply bind_inv in E as [mc [E _]].
  destruct (block_conceal_debug b mc E) as [t' [X' [L' _]]].
  destruct (flatten_prefix_unique (mb_depth b) 0 t' t [] rest) as [_ R]; [exact L'|apply pwf_loose_deep, W|rewrite app_nil_r; congruence|].
  symmetry. exact R.
Qed.
Lemma c51_vouches : forall (H : Hasher) md md' b src rng t c
  (validb : valid_block b) (valid : valid_source src) (made : try_commit src rng = Ret (Ok t))
  (block_id : block_commit_id md b = Ret c) (tree_id : tree_commit_id md' t = Ret c),
  exists pt rest, mb_cross_section b = flatten 0 pt ++ rest /\ pwf_loose (mb_depth b) 0 pt /\
    ((mb_depth b = mt_depth t /\ mb_cofactor b = mt_cofactor t /\
      forall q p m, In (q, (p, m)) (pleaves_at (mb_depth b) 0 0 pt) ->
        In (p, m) (ms_messages src) /\ q = s_pos p (mt_cofactor t) (mt_depth t)) \/
     collision_in (pcommit_pre (mb_depth b) (mb_cofactor b) pt ++ tree_pre t)).
Proof.
  intros H md md' b src rng t c [HD [Hc [_ [F _]]]] V E Ib It. pose proof (try_commit_good _ _ _ V E) as G.
  destruct (c04_placement _ _ _ V E) as [_ [_ [Em _]]].
  destruct (block_commit_prefix md b c HD F Ib) as [pt [rest [X [W C]]]]. exists pt, rest.
  split; [exact X|]. split; [exact W|]. rewrite (tree_commit_any md' t (gt_depth _ G)) in It. injection It as It.
  destruct (block_vouches (MBlock (mb_method b) (mb_depth b) (mb_cofactor b) (flatten 0 pt) None) t pt G) as [K|K];
    cbn [mb_depth mb_cofactor mb_cross_section]; try assumption; try reflexivity; [congruence|left|right; exact K].
  rewrite <- Em. exact K.
Qed.

(** ** C52 *)
Lemma c52_once : forall (H : Hasher) md b t p m q
  (wf : block_tree b t) (leaf : In (q, (p, m)) (pleaves_at (mb_depth b) 0 0 t))
  (once : count_occ b32_eq_dec (known_protocol_ids b) p = 1),
  exists pf, to_merkle_proof md b p = Ret (Ok pf) /\ valid_proof pf /\
    length (mp_path pf) = mb_depth b /\ mp_pos pf = s_pos p (mb_cofactor b) (mb_depth b) /\
    mp_cofactor pf = mb_cofactor b /\ mp_method pf = mb_method b /\
    (q = s_pos p (mb_cofactor b) (mb_depth b) ->
       exists c, block_commit_id md b = Ret c /\ convolve md pf p m = Ret (Ok c)).
Proof.
  intros H md b t p m q B I C. pose proof B as [HD [Hc [Hx Hw]]].
  destruct (extract_once md b t p m q B I C) as [path [Lp [ER E]]]. eexists. split; [exact E|].
  destruct (pos_spec p (mb_cofactor b) (mb_depth b) HD) as [Ps Pb].
  pose proof (width_of_bound _ HD) as WB. unfold width_of in WB.
  assert (B32 : (2 ^ 31 < 2 ^ 32)%N) by reflexivity.
  cbn [mp_path mp_pos mp_cofactor mp_method]. split; [|split; [exact Lp|split; [exact Ps|split; [reflexivity|split; [reflexivity|]]]]].
  - split; [|split]; cbn [mp_path mp_pos mp_cofactor mp_method]; [lia|exact Hc|lia].
  - intros Q. exists (pcommit (mb_depth b) (mb_cofactor b) t). split; [apply wf_commit, B|].
    rewrite convolve_spec by (cbn; lia). cbv zeta. cbn [mp_path mp_cofactor mp_pos].
    rewrite Lp, N.eqb_refl. do 2 f_equal. unfold proof_tree, pcommit. cbn [mp_path mp_pos].
    rewrite Ps, <- Q, <- ER. unfold width_of. rewrite prestrict_phash. reflexivity.
Qed.
Lemma c52_several : forall (H : Hasher) b t p
  (wf : block_tree b t) (several : 2 <= count_occ b32_eq_dec (known_protocol_ids b) p),
  (exists x, to_merkle_proof Debug b p = Panic x) /\
  exists pf, to_merkle_proof Release b p = Ret (Ok pf) /\ length (mp_path pf) < mb_depth b /\
    forall md msg c, block_commit_id md b = Ret c -> convolve md pf p msg = Ret (Ok c) ->
      collision_in (proof_pre pf p msg ++ pcommit_pre (mb_depth b) (mb_cofactor b) t).
Proof.
  intros H b t p B C. pose proof B as [HD [Hc [Hx Hw]]].
  destruct (extract_several b t p B C) as [Pd [path [Lp E]]]. split; [exact Pd|]. eexists. split; [exact E|].
  cbn [mp_path]. split; [exact Lp|]. intros md msg c I V. rewrite (wf_commit md b t B) in I. injection I as <-.
  rewrite convolve_spec in V by (cbn; lia). cbv zeta in V. cbn [mp_path mp_cofactor mp_pos] in V.
  destruct (_ =? _)%N; [|discriminate]. injection V as V.
  apply pcommit_inj in V as [[ED _]|K]; try assumption; try lia.
Qed.
Lemma c52_misplaced_refuted : forall (H : Hasher) md, exists b t p m pf c c',
  block_tree b t /\ known_leaves (mb_cross_section b) = [(p, m)] /\
  to_merkle_proof md b p = Ret (Ok pf) /\ block_commit_id md b = Ret c /\ convolve md pf p m = Ret (Ok c') /\
  (c = c' -> collision_in (pcommit_pre (mb_depth b) (mb_cofactor b) t ++ proof_pre pf p m)).
Proof.
  intros H md. set (p := b32_fill x01). set (m := b32_fill x02).
  set (h := if b32_eq_dec (HASH (s_leaf p m)) (b32_fill x00) then b32_fill x01 else b32_fill x00).
  set (t := PBr (PLeaf p m) (PConc h)). set (b := MBlock Sha256t 1 0 (flatten 0 t) None).
  assert (B : block_tree b t).
  { split; [cbn; lia|split; [reflexivity|split; [reflexivity|cbn; lia]]]. }
  destruct (extract_once md b t p m 0%N B) as [path [Lp [ER E]]].
  - left. reflexivity.
  - unfold known_protocol_ids. cbn [b t mb_cross_section flatten app known_leaves map fst].
    rewrite count_occ_cons_eq by reflexivity. reflexivity.
  - assert (M : mem [p] p = true) by (apply mem_In; left; reflexivity).
    cbn [mb_depth mb_cofactor b] in Lp, ER, E.
    assert (EP : path = [h]).
    { destruct path as [|h' [|]]; try discriminate. unfold t in ER.
      cbn [prestrict pleaves app existsb fst] in ER. rewrite M in ER. cbn [orb] in ER.
      change (path_tree [h'] 0 p m) with (PBr (PLeaf p m) (PConc h')) in ER. injection ER as ER. congruence. }
    subst path. exists b, t, p, m. eexists. exists (pcommit 1 0 t). eexists.
    split; [exact B|]. split; [reflexivity|]. split; [exact E|]. split; [exact (wf_commit md b t B)|]. split.
    + rewrite convolve_spec by (cbn; lia). cbv zeta. cbn [mp_path mp_cofactor mp_pos length]. rewrite N.eqb_refl. reflexivity.
    + intros Q. assert (PP : protocol_id_pos p 0 1 = 1%N) by (vm_compute; reflexivity).
      unfold proof_tree in Q. unfold proof_pre. cbn [mp_path mp_pos mp_cofactor length b mb_depth mb_cofactor] in Q |- *. rewrite PP in Q |- *.
      change (path_tree [h] 1 p m) with (PBr (PConc h) (PLeaf p m)) in Q |- *.
      assert (B16 : (0 < 2 ^ 16)%N) by reflexivity.
      apply pcommit_inj in Q; try exact B16; try lia.
      destruct Q as [[_ [_ K]]|K]; [|exact K]. exfalso. unfold t in K. cbn [pcompat phash] in K. destruct K as [K _].
      unfold h in K. destruct (b32_eq_dec (HASH (s_leaf p m)) (b32_fill x00)) as [Z|Z]; [|congruence].
      rewrite Z in K. discriminate.
Qed.

(** ** C53 *)
Lemma c53_commit : forall (H : Hasher) md t (valid : valid_tree t),
  exists c, tree_commit_id md t = Ret c /\ block_commit_id md (block_of_tree t) = Ret c /\
    c = pcommit (mt_depth t) (mt_cofactor t) (tree_full t) /\
    exists root, mt_root t = Ret root /\ tree_conceal md t = Ret (MConcealed (mt_depth t) (mt_cofactor t) root).
Proof.
  intros H md t [HD _]. exists (pcommit (mt_depth t) (mt_cofactor t) (tree_full t)).
  split; [apply tree_commit_any, HD|]. split; [exact (tree_commit_any md t HD)|]. split; [reflexivity|].
  eexists. split; [apply tree_root_ok, HD|].
  apply (block_conceal_ok md (block_of_tree t) (tree_full t)); [exact HD|apply block_of_tree_flatten|apply pwf_loose_of, tree_full_pwf].
Qed.
Lemma c53_determined : forall (H : Hasher) md t1 t2 (valid1 : valid_tree t1) (valid2 : valid_tree t2)
  (depth : mt_depth t1 = mt_depth t2) (cofactor : mt_cofactor t1 = mt_cofactor t2) (entropy : mt_entropy t1 = mt_entropy t2)
  (slots : forall pos, (pos < 2 ^ N.of_nat (mt_depth t1))%N -> om_get N.ltb pos (mt_map t1) = om_get N.ltb pos (mt_map t2)),
  tree_commit_id md t1 = tree_commit_id md t2.
Proof.
  intros H md t1 t2 [HD _] [HD2 _] ED EC EE ES. rewrite !tree_commit_any by assumption. rewrite <- ED, <- EC. do 2 f_equal.
  unfold tree_full. rewrite <- ED.
  assert (G : forall k o, (o + 2 ^ N.of_nat k <= 2 ^ N.of_nat (mt_depth t1))%N -> full_tree k o (slot t1) = full_tree k o (slot t2)).
  { induction k as [|k IH]; intros o L; cbn [full_tree].
    - unfold slot. change (2 ^ N.of_nat 0)%N with 1%N in L. rewrite <- ES, EE by lia. reflexivity.
    - rewrite Nat2N.inj_succ, N.pow_succ_r' in L. rewrite !IH by lia. reflexivity. }
  apply G. lia.
Qed.
Lemma c53_binding : forall (H : Hasher) md t1 t2 c (valid1 : valid_tree t1) (valid2 : valid_tree t2)
  (id1 : tree_commit_id md t1 = Ret c) (id2 : tree_commit_id md t2 = Ret c),
  (mt_depth t1 = mt_depth t2 /\ mt_cofactor t1 = mt_cofactor t2 /\
   forall pos, (pos < 2 ^ N.of_nat (mt_depth t1))%N ->
     om_get N.ltb pos (mt_map t1) = om_get N.ltb pos (mt_map t2) /\
     (om_get N.ltb pos (mt_map t1) = None -> mt_entropy t1 = mt_entropy t2)) \/
  collision_in (tree_pre t1 ++ tree_pre t2).
Proof.
  intros H md t1 t2 c V1 V2 I1 I2.
  destruct V1 as [D1 [E1 [C1 _]]]. destruct V2 as [D2 [E2 [C2 _]]].
  rewrite tree_commit_any in I1, I2 by assumption. apply slots_binding; try assumption. congruence.
Qed.
Lemma c53_messages_refuted : exists t1 t2, valid_tree t1 /\ valid_tree t2 /\ mt_messages t1 <> mt_messages t2 /\
  forall (H : Hasher) md, tree_commit_id md t1 = tree_commit_id md t2.
Proof.
  exists (MTree Sha256t 2 7 0 [(p1, m1)] [(1%N, (p1, m1))]), (MTree Sha256t 2 7 0 [(p2, m2)] [(1%N, (p1, m1))]).
  assert (V : forall ms, ms = [(p1, m1)] \/ ms = [(p2, m2)] -> valid_tree (MTree Sha256t 2 7 0 ms [(1%N, (p1, m1))])).
  { intros ms [-> | ->]; (split; [cbn; lia|]); (split; [reflexivity|]); (split; [reflexivity|]); (split; [reflexivity|]);
      (split; [reflexivity|]); (split; [reflexivity|]); (split; [reflexivity|]); constructor; [reflexivity|constructor|reflexivity|constructor]. }
  split; [apply V; auto|]. split; [apply V; auto|]. split; [discriminate|].
  intros H md. apply c53_determined; try reflexivity; apply V; auto.
Qed.

(** ** C54 *)
Lemma c54_defaults : forall (H : Hasher) md e rng r,
  let t e := MTree Sha256t 3 e 0 [] [] in
  try_commit (multi_source_with_static_entropy e) rng = Ret (Ok (t e)) /\
  try_commit multi_source_default (Some r) = Ret (Ok (t r)) /\
  (exists x, try_commit multi_source_default None = Panic x) /\
  into_proofs md (t e) = Ret [].
Proof.
  intros H md e rng r. cbv zeta.
  assert (E : forall e', try_commit (multi_source_with_static_entropy e') rng = Ret (Ok (MTree Sha256t 3 e' 0 [] []))) by (intros; reflexivity).
  split; [apply E|]. split; [reflexivity|]. split; [eexists; reflexivity|].
  reflexivity.
Qed.
Lemma c54_entropy : forall (H : Hasher) md e1 e2 rng1 rng2 t1 t2 c
  (u64_1 : (e1 < 2 ^ 64)%N) (u64_2 : (e2 < 2 ^ 64)%N)
  (made1 : try_commit (multi_source_with_static_entropy e1) rng1 = Ret (Ok t1))
  (made2 : try_commit (multi_source_with_static_entropy e2) rng2 = Ret (Ok t2))
  (id1 : tree_commit_id md t1 = Ret c) (id2 : tree_commit_id md t2 = Ret c),
  e1 = e2 \/ collision_in (tree_pre t1 ++ tree_pre t2).
Proof.
  intros H md e1 e2 rng1 rng2 t1 t2 c U1 U2 M1 M2 I1 I2.
  rewrite (proj1 (c54_defaults H md e1 rng1 0%N)) in M1. rewrite (proj1 (c54_defaults H md e2 rng2 0%N)) in M2.
  injection M1 as <-. injection M2 as <-.
  destruct (slots_binding (MTree Sha256t 3 e1 0 [] []) (MTree Sha256t 3 e2 0 [] [])) as [[_ [_ K]]|K];
    cbn [mt_depth mt_cofactor mt_entropy]; try lia; try reflexivity; try assumption.
  - rewrite tree_commit_any in I1, I2 by (cbn; lia). cbn [mt_depth mt_cofactor] in I1, I2. congruence.
  - left. apply (K 0%N); reflexivity.
  - right. exact K.
Qed.
Lemma c54_shape : forall method min_depth msgs s1 s2 rng1 rng2 t1 t2
  (valid1 : valid_source (MultiSource method min_depth msgs s1)) (valid2 : valid_source (MultiSource method min_depth msgs s2))
  (made1 : try_commit (MultiSource method min_depth msgs s1) rng1 = Ret (Ok t1))
  (made2 : try_commit (MultiSource method min_depth msgs s2) rng2 = Ret (Ok t2)),
  mt_depth t1 = mt_depth t2 /\ mt_cofactor t1 = mt_cofactor t2 /\ mt_messages t1 = mt_messages t2 /\ mt_map t1 = mt_map t2 /\
  mt_method t1 = mt_method t2.
Proof.
  intros mth d msgs s1 s2 rng1 rng2 t1 t2 _ _. unfold try_commit. cbn [ms_messages ms_min_depth ms_static_entropy ms_method].
  destruct (_ && _); [discriminate|]. destruct (_ <? _)%N; [discriminate|].
  intros E1 E2. apply bind_inv in E1 as [e1 [_ E1]]. apply bind_inv in E2 as [e2 [_ E2]].
  destruct (commit_loop 32 msgs d 1) as [[[[d' c'] m']|er]|]; try discriminate. cbn [bind] in *.
  injection E1 as <-. injection E2 as <-. cbn. auto.
Qed.

(** ** C55 *)
Lemma c55_few : forall src rng
  (valid : valid_source src) (few : length (ms_messages src) <= 10) (room : ms_min_depth src <= 30)
  (some : ms_min_depth src <> 0 \/ ms_messages src <> []) (entropy : ms_static_entropy src <> None \/ rng <> None),
  exists t, try_commit src rng = Ret (Ok t) /\ mt_depth t <= 31 /\ (mt_cofactor t <= 500)%N.
Proof.
  intros src rng V F R S EN.
  destruct (c05_first_fit src rng V EN) as [[Z [L _]]|[[_ [NO _]]|[_ [t [E [[A _] _]]]]]].
  - exfalso. destruct S as [S|S]; [contradiction|]. destruct (ms_messages src); [auto|discriminate].
  - exfalso. destruct (few_fit (ms_messages src) F) as [c [B W]].
    { apply (om_sorted_NoDup b32_ltb), V. }
    apply (NO 31 c). split; [|exact W]. split; [lia|]. split; [|split; [exact B|]].
    + change (2 ^ N.of_nat 31)%N with 2147483648%N. lia.
    + replace (31 =? ms_min_depth src) with false by (symmetry; apply Nat.eqb_neq; lia).
      change (2 ^ N.of_nat (31 - 1))%N with 1073741824%N. lia.
  - exists t. destruct A as [A1 [_ [A2 _]]]. split; [exact E|]. split; [lia|exact A2].
Qed.
Lemma c55_single : forall src rng
  (valid : valid_source src) (single : length (ms_messages src) <= 1)
  (some : ms_min_depth src <> 0 \/ ms_messages src <> []) (entropy : ms_static_entropy src <> None \/ rng <> None),
  exists t, try_commit src rng = Ret (Ok t) /\ mt_depth t = ms_min_depth src /\ mt_cofactor t = 0%N.
Proof.
  intros src rng V F S EN.
  assert (P0 : (1 <= 2 ^ N.of_nat (ms_min_depth src))%N) by (pose proof (N.pow_nonzero 2 (N.of_nat (ms_min_depth src))); lia).
  assert (A0 : allowed (ms_min_depth src) (length (ms_messages src)) (ms_min_depth src) 0).
  { split; [pose proof (proj1 V); lia|]. split; [lia|]. split; [lia|]. apply N.le_0_l. }
  assert (W0 : fits (ms_messages src) (ms_min_depth src) 0).
  { unfold fits. destruct (ms_messages src) as [|x [|y r]]; [constructor|constructor; [intros []|constructor]|cbn in F; lia]. }
  destruct (c05_first_fit src rng V EN) as [[Z [L _]]|[[_ [NO _]]|[_ [t [E [[A _] M]]]]]].
  - exfalso. destruct S as [S|S]; [contradiction|]. destruct (ms_messages src); [auto|discriminate].
  - exfalso. exact (NO _ _ (conj A0 W0)).
  - exists t. split; [exact E|]. specialize (M _ _ (conj A0 W0)). unfold not_after in M. cbn [fst snd] in M.
    destruct A as [A _]. destruct M as [M|[M1 M2]]; [lia|]. split; [exact M1|lia].
Qed.
Lemma c55_min31_refuted : exists src, valid_source src /\ length (ms_messages src) = 2 /\ ms_min_depth src = 31 /\
  forall rng, try_commit src rng = Ret (Err (CantFitInMaxSlots 2)).
Proof.
  exists (MultiSource Sha256t 31 [(b32_fill x00, m1); (b32_of_N (2 ^ 31 * (2 ^ 31 - 1)), m2)] (Some 7%N)).
  split; [|split; [reflexivity|split; [reflexivity|intros rng; vm_compute; reflexivity]]].
  split; [cbn; lia|]. split; [vm_compute; discriminate|]. split; vm_compute; reflexivity.
Qed.
Lemma c55_crafted_refuted : exists src n, valid_source src /\ ms_min_depth src = 3 /\
  length (ms_messages src) = n /\ n <= 1100 /\ forall rng, try_commit src rng = Ret (Err (CantFitInMaxSlots n)).
Proof.
  destruct crafted_fails as [n [L [E F]]]. exists crafted, n. split; [exact crafted_valid|]. split; [reflexivity|].
  split; [exact E|split; [exact L|exact F]].
Qed.

(** ** C56 *)
Lemma c56_passes : forall (H : Hasher) md b t n fuel
  (wf : block_tree b t) (enough : mb_depth b < fuel),
  conceal_loop fuel md (mb_depth b) (mb_cross_section b) n =
  conceal_loop (S (length (mb_cross_section b))) md (mb_depth b) (mb_cross_section b) n.
Proof.
  intros H md b t n fuel [HD [_ [Hx Hw]]] L. rewrite Hx. pose proof (mute_bound_strict _ _ _ Hw).
  apply loop_passes; [exact HD|apply pwf_loose_of, Hw|lia].
Qed.
Lemma c56_conceal : forall (H : Hasher) md b ids
  (wf : wf_block b) (revealed : forall p, In p ids -> In p (known_protocol_ids b)),
  exists xs n, conceal_leaves (mb_depth b) ids (mb_cross_section b) (os_of_list b32_ltb ids) 0 = (xs, [], n) /\
    conceal_except md b ids =
      (' (xs', n') <- conceal_loop (S (mb_depth b)) md (mb_depth b) xs n ;;
       Ret (MBlock (mb_method b) (mb_depth b) (mb_cofactor b) xs' None, Ok n')).
Proof.
  intros H md b ids [t B] K. pose proof B as [HD [Hc [Hx Hw]]].
  assert (Z : missing ids (mb_cross_section b) = []) by (apply missing_nil; exact K).
  exists (map (keep_node (mb_depth b) ids) (mb_cross_section b)), (dropped ids (mb_cross_section b)). split.
  - rewrite conceal_leaves_spec. fold (missing ids (mb_cross_section b)). rewrite Z. reflexivity.
  - rewrite conceal_except_unfold, Z, Hx, keep_flatten by (apply pwf_loose_of, Hw).
    pose proof (pkeep_pwf (mem ids) _ _ _ Hw) as Hk. pose proof (mute_bound_strict _ _ _ Hk).
    rewrite <- (pkeep_length (mem ids) 0 t). rewrite <- (loop_passes md (mb_depth b) _ _ (S (mb_depth b)) HD (pwf_loose_of _ _ _ Hk)) by lia.
    reflexivity.
Qed.
Lemma c56_sharp : forall (H : Hasher) md D n (deep : D <= 31),
  exists b, wf_block b /\ mb_depth b = D /\ length (mb_cross_section b) = S D /\
    conceal_loop D md D (mb_cross_section b) n = Panic PFuel.
Proof.
  intros H md D n HD. exists (MBlock Sha256t D 0 (flatten 0 (comb D (b32_fill x00))) None). cbn [mb_depth mb_cross_section].
  split; [|split; [reflexivity|split]].
  - exists (comb D (b32_fill x00)). split; [exact HD|split; [reflexivity|split; [reflexivity|apply comb_pwf; cbn; lia]]].
  - generalize (b32_fill x00) at 1. intros x. generalize 0 at 1. clear. revert x. induction D as [|D IH]; intros x d; [reflexivity|].
    cbn [comb flatten app length]. rewrite IH. reflexivity.
  - apply comb_passes; [exact HD|lia].
Qed.

(** ** C57 *)
Lemma c57_blocks : forall (H : Hasher) b b2 ids p m pf,
  (forall x, conceal_except Debug b ids = Ret x -> conceal_except Release b ids = Ret x) /\
  (forall x, conceal_other Debug b p = Ret x -> conceal_other Release b p = Ret x) /\
  (forall x, block_conceal Debug b = Ret x -> block_conceal Release b = Ret x) /\
  (forall x, block_commit_id Debug b = Ret x -> block_commit_id Release b = Ret x) /\
  (forall x, merge_reveal Debug b b2 = Ret x -> merge_reveal Release b b2 = Ret x) /\
  (forall x, merge_reveal_path Debug b pf p m = Ret x -> merge_reveal_path Release b pf p m = Ret x) /\
  (forall x, to_merkle_proof Debug b p = Ret x -> to_merkle_proof Release b p = Ret x) /\
  (forall x, into_known_proofs Debug b = Ret x -> into_known_proofs Release b = Ret x) /\
  (forall x, mb_factored_width Debug b = Ret x -> mb_factored_width Release b = Ret x) /\
  (forall x, mb_matches Debug b b2 = Ret x -> mb_matches Release b b2 = Ret x).
Proof.
  intros H b b2 ids p m pf. split; [apply below_except|]. split; [apply below_other|]. split; [apply below_conceal|].
  split; [apply below_commit_id|]. split; [apply below_merge|]. split; [apply below_merge_path|].
  split; [apply below_proof|]. split; [apply below_known_proofs|].
  split; [apply (below_widths (MTree Sha256t 0 0 0 [] []) b pf)|]. apply below_matches.
Qed.
Lemma c57_trees : forall (H : Hasher) t t2 pf p m,
  (forall x, tree_conceal Debug t = Ret x -> tree_conceal Release t = Ret x) /\
  (forall x, tree_commit_id Debug t = Ret x -> tree_commit_id Release t = Ret x) /\
  (forall x, into_proofs Debug t = Ret x -> into_proofs Release t = Ret x) /\
  (forall x, mt_matches Debug t t2 = Ret x -> mt_matches Release t t2 = Ret x) /\
  (forall x, mt_factored_width Debug t = Ret x -> mt_factored_width Release t = Ret x) /\
  (forall x, mp_factored_width Debug pf = Ret x -> mp_factored_width Release pf = Ret x) /\
  (forall x, convolve Debug pf p m = Ret x -> convolve Release pf p m = Ret x).
Proof.
  intros H t t2 pf p m. split; [apply below_conceal|]. split; [apply below_tree_commit_id|].
  split; [apply below_known_proofs|]. split; [apply below_matches|].
  split; [apply (below_widths t (MBlock Sha256t 0 0 [] None) pf)|].
  split; [apply (below_widths t (MBlock Sha256t 0 0 [] None) pf)|]. apply below_convolve.
Qed.
Lemma c57_converse_refuted : forall (H : Hasher), exists b c x,
  block_commit_id Release b = Ret c /\ block_commit_id Debug b = Panic x.
Proof.
  intros H. exists (MBlock Sha256t 1 0 [ConcealedNode 0 (b32_fill x01); ConcealedNode 1 (b32_fill x02)] None).
  eexists. eexists. split; cbv -[HASH]; reflexivity.
Qed.
Lemma c57_wellformed : forall (H : Hasher) b ids p
  (wf : wf_block b) (once : count_occ b32_eq_dec (known_protocol_ids b) p <= 1),
  conceal_except Debug b ids = conceal_except Release b ids /\
  block_commit_id Debug b = block_commit_id Release b /\
  to_merkle_proof Debug b p = to_merkle_proof Release b p.
Proof.
  intros H b ids p [t B] O. split; [|split].
  - destruct (conceal_except Debug b ids) as [x|x] eqn:E; [symmetry; exact (below_except _ _ _ E)|]. exfalso.
    destruct (existsb (fun q => negb (mem (known_protocol_ids b) q)) ids) eqn:X.
    + apply existsb_exists in X as [q [I M]].
      destruct (c10_unknown H Debug b ids q (ex_intro _ t B) I) as [b' [q' [c [C _]]]]; [|congruence].
      intros K. apply mem_In in K. rewrite K in M. discriminate.
    + destruct (c08_conceal H Debug b ids (ex_intro _ t B)) as [b' [n [c [C _]]]]; [|congruence].
      intros q I. destruct (mem (known_protocol_ids b) q) eqn:M; [apply mem_In; exact M|].
      assert (T : existsb (fun q => negb (mem (known_protocol_ids b) q)) ids = true); [|congruence].
      apply existsb_exists. exists q. rewrite M. auto.
  - rewrite !(wf_commit _ _ _ B). reflexivity.
  - destruct (Nat.eq_dec (count_occ b32_eq_dec (known_protocol_ids b) p) 1) as [E|E].
    + assert (I : In p (known_protocol_ids b)) by (apply (count_occ_In b32_eq_dec); lia).
      rewrite (wf_known b t B) in I. apply in_map_iff in I as [[p' m] [Ep I]]. cbn in Ep. subst p'.
      rewrite <- (pleaves_at_leaves (mb_depth b) 0 0 t) in I. apply in_map_iff in I as [[q e] [Ee I]]. cbn in Ee. subst e.
      destruct (c52_once H Debug b t p m q B I E) as [pf [C _]]. rewrite C. symmetry. exact (below_proof _ _ _ C).
    + assert (NI : ~ In p (known_protocol_ids b)) by (apply (count_occ_not_In b32_eq_dec); lia).
      rewrite !(c10_proof_unknown H _ b p (ex_intro _ t B) NI). reflexivity.
Qed.

(** ** C58 *)
Lemma pjoin_whole {H : Hasher} W d v t : pview W d v t -> pjoin t v = t /\ pjoin v t = t.
Proof.
  revert d t. induction v as [h|p m|l IHl r IHr]; intros d t V.
  - split; [|reflexivity]. destruct t as [h'|p m|l r]; cbn in *; congruence.
  - destruct t; cbn in V; try contradiction. destruct V as [-> ->]. auto.
  - destruct t as [h'|p m|l' r']; cbn in V; try contradiction. destruct V as [Vl Vr].
    destruct (IHl _ _ Vl) as [A1 A2]. destruct (IHr _ _ Vr) as [A3 A4]. cbn. split; congruence.
Qed.
Lemma c58_absorb : forall (H : Hasher) md b ids b' n
  (wf : wf_block b) (concealed : conceal_except md b ids = Ret (b', Ok n)),
  exists k, merge_reveal md b b' = Ret (b, Ok k) /\
    merge_reveal md b' b = Ret (MBlock (mb_method b) (mb_depth b) (mb_cofactor b) (mb_cross_section b) None, Ok k) /\
    k = (N.of_nat (length (mb_cross_section b)) mod 2 ^ 16)%N.
Proof.
  intros H md b ids b' n [t B] E. pose proof (conceal_ok_known md b t ids b' n B E) as K.
  destruct (wf_conceal md b t ids B K) as [C B']. rewrite E in C. injection C as -> ->.
  pose proof (prestrict_view (mem ids) (width_of (mb_depth b)) 0 t) as V.
  pose proof (pview_refl (width_of (mb_depth b)) 0 t) as R. destruct (pjoin_whole _ _ _ _ V) as [J1 J2].
  destruct (merge_reveal_compat md b _ t _ B B' eq_refl eq_refl (pview_compat _ _ _ _ _ R V)) as [M _].
  destruct (merge_reveal_compat md _ b _ t B' B eq_refl eq_refl (pview_compat _ _ _ _ _ V R)) as [M' _].
  cbv zeta in M, M'. rewrite J1 in M. rewrite J2 in M'. destruct B as [_ [_ [X _]]].
  eexists. split; [|split; [|reflexivity]].
  - rewrite M, X, <- X. destruct b; reflexivity.
  - rewrite M', X. reflexivity.
Qed.
Lemma c58_union : forall (H : Hasher) md b ids1 ids2 b1 b2 n1 n2
  (wf : wf_block b) (concealed1 : conceal_except md b ids1 = Ret (b1, Ok n1))
  (concealed2 : conceal_except md b ids2 = Ret (b2, Ok n2)),
  exists b' k n, merge_reveal md b1 b2 = Ret (b', Ok k) /\ conceal_except md b (ids1 ++ ids2) = Ret (b', Ok n) /\
    merge_reveal md b2 b1 = Ret (b', Ok k).
Proof.
  intros H md b ids1 ids2 b1 b2 n1 n2 [t B] E1 E2.
  pose proof (conceal_ok_known md b t ids1 b1 n1 B E1) as K1. pose proof (conceal_ok_known md b t ids2 b2 n2 B E2) as K2.
  destruct (wf_conceal md b t ids1 B K1) as [C1 B1]. rewrite E1 in C1. injection C1 as -> ->.
  destruct (wf_conceal md b t ids2 B K2) as [C2 B2]. rewrite E2 in C2. injection C2 as -> ->.
  destruct (wf_conceal md b t (ids1 ++ ids2) B) as [C _].
  { intros p I. apply in_app_or in I as [I|I]; auto. }
  pose proof (prestrict_view (mem ids1) (width_of (mb_depth b)) 0 t) as V1.
  pose proof (prestrict_view (mem ids2) (width_of (mb_depth b)) 0 t) as V2.
  pose proof (merge_reveal_compat md _ _ _ _ B1 B2 eq_refl eq_refl (pview_compat _ _ _ _ _ V1 V2)) as [M _].
  pose proof (merge_reveal_compat md _ _ _ _ B2 B1 eq_refl eq_refl (pview_compat _ _ _ _ _ V2 V1)) as [M' _].
  cbv zeta in M, M'. cbn [mb_method mb_depth mb_cofactor mb_entropy] in M, M'. rewrite pjoin_prestrict in M, M'.
  rewrite (prestrict_ext (fun p => mem ids1 p || mem ids2 p) (mem (ids1 ++ ids2))) in M
    by (intros p m _; unfold mem; rewrite existsb_app; reflexivity).
  rewrite (prestrict_ext (fun p => mem ids2 p || mem ids1 p) (mem (ids1 ++ ids2))) in M'
    by (intros p m _; unfold mem; rewrite existsb_app, orb_comm; reflexivity).
  eexists. eexists. eexists. split; [exact M|]. split; [exact C|exact M'].
Qed.
