(** Theorems: the exact outcome of merging a block with any representable block in builds without debug assertions. *)
From Verif Require Import Strict SpecMerkle MerkleProofs SpecCommit SpecFull.
From Verif Require Import Base BaseFacts OrdMap OrdMapFacts SpecHash HashFacts Merkle MpcAtoms
  MpcTree MpcBlock SpecTree SpecBlock SpecDerived SpecValid TreeFacts ConcealProofs BlockInv PathProofs MergeProofs
  PrefixProofs MpcTreeProofs DerivedProofs MergeLooseProofs PoisonProofs SpecSettled TheoremsMpc TheoremsBlock TheoremsAdv TheoremsSettled TheoremsMore SpecFuse.
Local Open Scope nat_scope.

Section Fuse.
Context {H : Hasher}.

Lemma fuse_loop D W ta tb ra rb : pcompat W 0 ta tb -> pwf_loose D 0 ta -> pwf_loose D 0 tb -> ra = [] \/ rb = [] ->
  merge_loop (S (length (flatten 0 ta ++ ra))) D (flatten 0 ta ++ ra) (flatten 0 tb ++ rb) =
  Ret (flatten 0 (pjoin ta tb) ++ tl ra ++ tl rb).
Proof.
  intros C Wa Wb O. destruct (merge_loop_loose D W ta tb 0 C Wa Wb) as [k [K E]].
  specialize (E (S (length (flatten 0 ta ++ ra)) - k) ra rb). rewrite app_length in *.
  replace (k + (S (length (flatten 0 ta) + length ra) - k)) with (S (length (flatten 0 ta) + length ra)) in E by lia.
  rewrite E. destruct (S (length (flatten 0 ta) + length ra) - k) as [|f] eqn:Q; [lia|]. cbn [merge_loop].
  destruct O as [-> | ->]; [reflexivity|]. destruct ra; reflexivity.
Qed.

Lemma span_total D xs : D <= 31 -> Forall valid_tree_node xs -> forall o,
  span_sum Release D xs (wrap o) = Ret (wrap (o + heights_sum D xs)).
Proof.
  intros HD V. induction V as [|n xs Vn V IH]; intros o; cbn [span_sum heights_sum].
  - rewrite N.add_0_r. reflexivity.
  - assert (E : (h <- u8_sub Release D (tn_depth_or n D) ;; u32_pow2 Release (N.of_nat h)) = Ret (height D n)).
    { destruct n as [d h|p m]; cbn [tn_depth_or tn_depth height] in *; unfold u8_sub, u32_pow2.
      - destruct (d <=? D) eqn:E; cbn [bind].
        + replace (N.of_nat (D - d) <? 32)%N with true by (symmetry; apply N.ltb_lt; lia). reflexivity.
        + cbn in Vn. replace (N.of_nat (D + 256 - d) <? 32)%N with false by (symmetry; apply N.ltb_ge; lia). reflexivity.
      - rewrite Nat.leb_refl. cbn [bind]. rewrite Nat.sub_diag. reflexivity. }
    apply bind_inv in E as [h [E1 E2]]. rewrite E1. cbn [bind]. rewrite E2. cbn [bind]. rewrite add_wrap. cbn [bind].
    rewrite IH. f_equal. f_equal. lia.
Qed.

Lemma pjoin_nodes a : forall b d n, In n (flatten d (pjoin a b)) -> In n (flatten d a) \/ In n (flatten d b).
Proof.
  induction a as [h|p m|l IHl r IHr]; intros b d n I; [right; exact I|destruct b; left; exact I|].
  destruct b as [h|p m|l' r']; [left; exact I|left; exact I|]. cbn [pjoin flatten] in *. rewrite !in_app_iff in *.
  destruct I as [I|I]; [apply IHl in I|apply IHr in I]; tauto.
Qed.
Lemma in_tl {A} (x : A) l : In x (tl l) -> In x l.
Proof. destruct l; [intros []|right; assumption]. Qed.

Lemma fuse_exact a b ta tb Fa Fb :
  valid_block a -> valid_block b -> mb_depth a = mb_depth b -> mb_cofactor a = mb_cofactor b ->
  pcompat (2 ^ N.of_nat (mb_depth a)) 0 ta tb ->
  mb_cross_section a = flatten 0 ta ++ frontiers Fa -> pwf_loose (mb_depth a) 0 ta ->
  settled (mb_depth a) (2 ^ N.of_nat (mb_depth a)) 0 Fa ->
  mb_cross_section b = flatten 0 tb ++ frontiers Fb -> pwf_loose (mb_depth b) 0 tb ->
  settled (mb_depth b) (2 ^ N.of_nat (mb_depth b)) 0 Fb ->
  Fa = [] \/ Fb = [] ->
  let tail := tl (frontiers Fa) ++ tl (frontiers Fb) in
  let xs := flatten 0 (pjoin ta tb) ++ tail in
  (fused (mb_depth a) (pjoin ta tb) tail /\
   merge_reveal Release a b = Ret (MBlock (mb_method a) (mb_depth a) (mb_cofactor a) xs (mb_entropy a), Ok (N.of_nat (length xs) mod 2 ^ 16)%N)) \/
  (~ fused (mb_depth a) (pjoin ta tb) tail /\ exists p, merge_reveal Release a b = Panic p).
Proof.
  intros Va Vb ED EC C Xa Wa Sa Xb Wb Sb O tail xs.
  assert (Ia : block_commit_id Release a = Ret (pcommit (mb_depth a) (mb_cofactor a) ta)) by (eapply settled_value; eassumption).
  assert (Ib : block_commit_id Release b = Ret (pcommit (mb_depth b) (mb_cofactor b) tb)) by (eapply settled_value; eassumption).
  rewrite <- ED, <- EC in Ib. rewrite <- ED in Wb. set (D := mb_depth a) in *.
  assert (EP : pcommit D (mb_cofactor a) tb = pcommit D (mb_cofactor a) ta).
  { unfold pcommit. rewrite (pcompat_phash _ _ _ _ C). reflexivity. }
  assert (EJ : pcommit D (mb_cofactor a) (pjoin ta tb) = pcommit D (mb_cofactor a) ta).
  { unfold pcommit. rewrite (pjoin_phash _ _ _ _ C). reflexivity. }
  assert (WJ : pwf_loose D 0 (pjoin ta tb)) by (eapply pjoin_loose; eassumption).
  destruct Va as [HD [HC [_ [VNa VE]]]]. destruct Vb as [_ [_ [_ [VNb _]]]].
  assert (VN : Forall valid_tree_node xs).
  { apply Forall_forall. intros n I. rewrite Forall_forall in VNa, VNb. unfold xs, tail in I. rewrite !in_app_iff in I.
    destruct I as [I|[I|I]].
    - apply pjoin_nodes in I as [I|I]; [apply VNa; rewrite Xa|apply VNb; rewrite Xb]; apply in_or_app; left; exact I.
    - apply VNa. rewrite Xa. apply in_or_app. right. apply in_tl, I.
    - apply VNb. rewrite Xb. apply in_or_app. right. apply in_tl, I. }
  assert (NE : flatten 0 (pjoin ta tb) <> []) by apply flatten_nonempty.
  unfold merge_reveal. fold D. rewrite Ia, Ib. cbn [bind]. rewrite EP, b32_eqb_refl. cbn [negb]. rewrite Xa, Xb.
  rewrite (fuse_loop D _ ta tb _ _ C Wa Wb) by (destruct O as [-> | ->]; [left|right]; reflexivity).
  cbn [bind]. fold tail. fold xs. destruct xs as [|x0 xs0] eqn:EX.
  { exfalso. unfold xs in EX. apply app_eq_nil in EX as [EX _]. contradiction. }
  rewrite <- EX in *. clear EX x0 xs0. fold xs.
  change (flatten 0 (pjoin ta tb) ++ tail) with xs.
  assert (FX : fused D (pjoin ta tb) tail <-> (exists F, tail = frontiers F /\ settled D (2 ^ N.of_nat D) 0 F) /\
    (heights_sum D xs mod 2 ^ 32 = 2 ^ N.of_nat D)%N /\ (N.of_nat (length xs) < 2 ^ 32)%N) by reflexivity.
  change u32_lim with (2 ^ 32)%N.
  destruct (N.of_nat (length xs) <? 2 ^ 32)%N eqn:EL; cbn [assert bind].
  2: { right. apply N.ltb_ge in EL. split; [rewrite FX; lia|eauto]. }
  apply N.ltb_lt in EL. pose proof (span_total D xs HD VN 0) as SS. change (wrap 0) with 0%N in SS. rewrite SS. cbn [bind].
  unfold mb_width_limit. fold D. change (width_of D) with (2 ^ N.of_nat D)%N. rewrite N.add_0_l. unfold wrap.
  destruct (heights_sum D xs mod 2 ^ 32 =? 2 ^ N.of_nat D)%N eqn:ES; cbn [assert bind].
  2: { right. apply N.eqb_neq in ES. split; [rewrite FX; tauto|eauto]. }
  apply N.eqb_eq in ES.
  set (c := with_cross_section a xs (mb_entropy a)).
  assert (Vc : valid_block c).
  { split; [exact HD|]. split; [exact HC|]. split; [|split; [exact VN|exact VE]]. cbn [c with_cross_section mb_cross_section].
    split; [|exact EL]. unfold xs. rewrite app_length. destruct (flatten 0 (pjoin ta tb)); [congruence|cbn; lia]. }
  destruct (block_commit_id Release c) as [x|p] eqn:IC.
  - left. destruct (proj1 (settled_domain c Vc) (ex_intro _ x IC)) as (t' & F & Q & W' & S').
    pose proof (settled_value c t' F Vc Q W' S') as IV. change (mb_cross_section c) with xs in Q. change (mb_depth c) with D in *.
    unfold xs in Q. apply (flatten_prefix_unique D) in Q as [<- Q]; [|apply pwf_loose_deep; assumption|apply pwf_loose_deep; assumption].
    change (mb_cofactor c) with (mb_cofactor a) in IV. rewrite EJ, IC in IV. injection IV as ->.
    split; [rewrite FX; split; [eauto|tauto]|]. cbn [bind]. rewrite b32_eqb_refl. cbn [assert bind]. reflexivity.
  - right. split; [|cbn [bind]; eauto]. rewrite FX. intros [[F [Q S']] _].
    destruct (proj2 (settled_domain c Vc)) as [y Y]; [|congruence].
    exists (pjoin ta tb), F. split; [cbn [c with_cross_section mb_cross_section]; unfold xs; rewrite Q; reflexivity|]. split; assumption.
Qed.


Lemma merge_loop_heights D : forall fuel la lb xs, merge_loop fuel D la lb = Ret xs ->
  (heights_sum D xs <= heights_sum D la + heights_sum D lb)%N.
Proof.
  induction fuel as [|fuel IH]; intros la lb xs E; [discriminate|]. cbn [merge_loop] in E.
  destruct la as [|n1 ra], lb as [|n2 rb].
  - injection E as <-. cbn. lia.
  - injection E as <-. cbn [tl app heights_sum]. lia.
  - injection E as <-. cbn [tl app heights_sum]. rewrite app_nil_r. lia.
  - destruct (tn_depth_or n1 D ?= tn_depth_or n2 D).
    + destruct (tree_node_eqb n1 n2).
      * apply bind_inv in E as [r [E1 E]]. injection E as <-. apply IH in E1. cbn [heights_sum]. lia.
      * destruct (tn_is_leaf n1), (tn_is_leaf n2); try discriminate.
        -- apply bind_inv in E as [r [E1 E]]. injection E as <-. apply IH in E1. cbn [heights_sum]. lia.
        -- apply bind_inv in E as [r [E1 E]]. injection E as <-. apply IH in E1. cbn [heights_sum]. lia.
        -- apply IH in E. cbn [heights_sum]. lia.
    + destruct (merge_take D _ false _ rb) as [t lb'] eqn:T. apply merge_take_split in T. subst rb.
      apply bind_inv in E as [r [E1 E]]. injection E as <-. apply IH in E1. cbn [heights_sum] in *. rewrite !heights_app. lia.
    + destruct (merge_take D _ false _ ra) as [t la'] eqn:T. apply merge_take_split in T. subst ra.
      apply bind_inv in E as [r [E1 E]]. injection E as <-. apply IH in E1. cbn [heights_sum] in *. rewrite !heights_app. lia.
Qed.

(** The sum does not wrap: nothing but nodes of no width follows the joined tree. *)
Lemma narrow_merge a b ta tb ra rb c n : valid_block a -> valid_block b -> mb_depth a = mb_depth b ->
  pcompat (2 ^ N.of_nat (mb_depth a)) 0 ta tb ->
  mb_cross_section a = flatten 0 ta ++ ra -> pwf (mb_depth a) 0 ta ->
  mb_cross_section b = flatten 0 tb ++ rb -> pwf (mb_depth a) 0 tb ->
  (heights_sum (mb_depth a) (mb_cross_section a) + heights_sum (mb_depth b) (mb_cross_section b) < 2 ^ 32 + 2 * 2 ^ N.of_nat (mb_depth a))%N ->
  merge_reveal Release a b = Ret (c, Ok n) ->
  exists r, mb_cross_section c = flatten 0 (pjoin ta tb) ++ r /\ heights_sum (mb_depth a) r = 0%N /\
    (forall P, Forall P ra -> Forall P rb -> Forall P r).
Proof.
  intros Va Vb ED C Xa Pa Xb Pb Na M.
  pose proof (c16_heights_release _ a b c n Va Vb M) as Su. destruct (c16_merge_any _ Release a b c n M) as (x & _ & _ & _ & _ & Dc & _).
  destruct (merge_reveal_inv Release a b c n M) as [E _]. rewrite Dc in Su. rewrite <- ED in Na. set (D := mb_depth a) in *.
  assert (HD : D <= 31) by apply Va. pose proof (pjoin_pwf _ _ _ _ _ C Pa Pb) as PJ.
  destruct (merge_loop_loose D _ ta tb 0 C (pwf_loose_of _ _ _ Pa) (pwf_loose_of _ _ _ Pb)) as [k [K L]].
  rewrite Xa, Xb in E. replace (S (length (flatten 0 ta ++ ra))) with (k + (S (length (flatten 0 ta ++ ra)) - k)) in E
    by (rewrite app_length; lia).
  rewrite L in E. apply bind_inv in E as [r [E X]]. injection X as X. symmetry in X. exists r. split; [exact X|].
  split; [|intros P Fa Fb; eapply merge_loop_forall; eassumption].
  apply merge_loop_heights in E. rewrite X in Su. rewrite Xa, Xb in Na.
  rewrite heights_app, (heights_flatten _ _ _ PJ), Nat.sub_0_r in Su.
  rewrite !heights_app, (heights_flatten _ _ _ Pa), (heights_flatten _ _ _ Pb), Nat.sub_0_r in Na.
  assert (P31 : (2 ^ N.of_nat D <= 2 ^ 31)%N) by (apply N.pow_le_mono_r; lia).
  change (2 ^ 31)%N with 2147483648%N in *. change (2 ^ 32)%N with 4294967296%N in *.
  pose proof (N.div_mod (2 ^ N.of_nat D + heights_sum D r) 4294967296) as DM. rewrite Su in DM. nia.
Qed.

(** A block of an honest tree has no node below the leaves. *)
Lemma compat_full_pwf W k d o a f : (forall i, is_slot (f i)) -> pwf_loose (d + k) d a -> pcompat W d a (full_tree k o f) ->
  pwf (d + k) d a \/ exists q e x y h, (o <= q < o + 2 ^ N.of_nat k)%N /\ f q = PConc h /\
    In (s_branch e W x y) (ppre W d a) /\ HASH (s_branch e W x y) = h.
Proof.
  intros Hf. revert d o a; induction k as [|k IH]; intros d o a L C.
  - destruct a as [h|p m|l r]; [left; cbn; lia|left; exact L|right]. cbn [full_tree] in C. specialize (Hf o).
    destruct (f o) as [h|p m|? ?] eqn:E; [|destruct C|destruct Hf]. cbn [pcompat phash] in C.
    exists o, d, (phash W (S d) l), (phash W (S d) r), h. split; [change (2 ^ N.of_nat 0)%N with 1%N; lia|].
    split; [exact E|]. split; [left; reflexivity|symmetry; exact C].
  - destruct a as [h|p m|l r]; [left; cbn; lia|left; exact L|]. cbn [full_tree pcompat pwf_loose] in C, L.
    destruct C as [C1 C2], L as [L1 L2]. replace (d + S k) with (S d + k) in * by lia.
    rewrite Nat2N.inj_succ, N.pow_succ_r'. cbn [pwf ppre].
    destruct (IH _ _ _ L1 C1) as [P1|(q & e & x & y & h & R & Q & I & E)];
      [destruct (IH _ _ _ L2 C2) as [P2|(q & e & x & y & h & R & Q & I & E)]|].
    + left. split; assumption.
    + right. exists q, e, x, y, h. split; [lia|]. split; [exact Q|]. split; [|exact E]. right. apply in_or_app. right. exact I.
    + right. exists q, e, x, y, h. split; [lia|]. split; [exact Q|]. split; [|exact E]. right. apply in_or_app. left. exact I.
Qed.

Lemma honest_pwf D cof pt t : good_tree t -> D <= 31 -> (cof < 2 ^ 16)%N -> pwf_loose D 0 pt ->
  pcommit D cof pt = pcommit (mt_depth t) (mt_cofactor t) (tree_full t) ->
  pwf D 0 pt \/ collision_in (pcommit_pre D cof pt ++ tree_pre t).
Proof.
  intros G HD Hc Hw E.
  assert (B16 : (500 < 2 ^ 16)%N) by reflexivity. pose proof (gt_cofactor _ G) as Gc.
  assert (Gc' : (mt_cofactor t < 2 ^ 16)%N) by lia.
  destruct (pcommit_inj _ _ _ _ _ _ HD (gt_depth _ G) Hc Gc' E) as [[ED [EC C]]|C].
  2: { right. eapply coll_incl; [|exact C]. intros x HI. unfold tree_pre. rewrite !in_app_iff in *. tauto. }
  subst D. unfold tree_full in C.
  destruct (compat_full_pwf _ (mt_depth t) 0 0 pt (slot t) (slot_is_slot t) Hw C) as [P|(q & e & x & y & h & R & Q & I & K)];
    [left; exact P|right].
  unfold slot in Q. destruct (om_get N.ltb q (mt_map t)) as [[p' m']|] eqn:Eg; [discriminate|]. injection Q as Q.
  exists (s_branch e (2 ^ N.of_nat (mt_depth t)) x y), (s_entropy (mt_entropy t) q). repeat split.
  - apply in_or_app. left. unfold pcommit_pre. apply in_or_app. right. exact I.
  - apply in_or_app. right. unfold tree_pre, entropy_pre. apply in_or_app. right. apply in_flat_map.
    exists q. rewrite Eg. split; [apply N_from_In; rewrite pow_of_nat; lia|left; reflexivity].
  - intros Z. symmetry in Z. revert Z. apply s_entropy_branch.
  - congruence.
Qed.

Lemma heights_no_leaf D xs : heights_sum D xs = 0%N -> known_leaves xs = [].
Proof.
  induction xs as [|[d h|p m] xs IH]; cbn [heights_sum height]; intros E; [reflexivity| |lia].
  cbn. apply IH. lia.
Qed.

End Fuse.

(** ** C124 *)
Lemma c124_exact : forall (H : Hasher) a b ta tb Fa Fb
  (valida : valid_block a) (validb : valid_block b)
  (sectiona : mb_cross_section a = flatten 0 ta ++ frontiers Fa) (leavesa : pwf_loose (mb_depth a) 0 ta)
  (remaindera : settled (mb_depth a) (2 ^ N.of_nat (mb_depth a)) 0 Fa)
  (sectionb : mb_cross_section b = flatten 0 tb ++ frontiers Fb) (leavesb : pwf_loose (mb_depth b) 0 tb)
  (remainderb : settled (mb_depth b) (2 ^ N.of_nat (mb_depth b)) 0 Fb)
  (one : Fa = [] \/ Fb = [])
  (ids : pcommit (mb_depth a) (mb_cofactor a) ta = pcommit (mb_depth b) (mb_cofactor b) tb),
  let tail := tl (frontiers Fa) ++ tl (frontiers Fb) in
  let xs := flatten 0 (pjoin ta tb) ++ tail in
  (fused (mb_depth a) (pjoin ta tb) tail /\
   merge_reveal Release a b = Ret (MBlock (mb_method a) (mb_depth a) (mb_cofactor a) xs (mb_entropy a), Ok (N.of_nat (length xs) mod 2 ^ 16)%N)) \/
  (~ fused (mb_depth a) (pjoin ta tb) tail /\ exists p, merge_reveal Release a b = Panic p) \/
  collision_in (pcommit_pre (mb_depth a) (mb_cofactor a) ta ++ pcommit_pre (mb_depth b) (mb_cofactor b) tb).
Proof.
  intros H a b ta tb Fa Fb Va Vb Xa Wa Sa Xb Wb Sb O E tail xs.
  destruct (pcommit_inj (mb_depth a) (mb_depth b) (mb_cofactor a) (mb_cofactor b) ta tb) as [[ED [EC PC]]|K];
    [apply Va|apply Vb|apply Va|apply Vb|exact E| |right; right; exact K].
  destruct (fuse_exact a b ta tb Fa Fb Va Vb ED EC PC Xa Wa Sa Xb Wb Sb O) as [Q|Q]; [left|right; left]; exact Q.
Qed.

Lemma c124_narrow : forall (H : Hasher) a b c n (valida : valid_block a) (validb : valid_block b)
  (shallowa : shallow_nodes (mb_depth a) (mb_cross_section a)) (shallowb : shallow_nodes (mb_depth b) (mb_cross_section b))
  (narrow : (heights_sum (mb_depth a) (mb_cross_section a) + heights_sum (mb_depth b) (mb_cross_section b) <
             2 ^ 32 + 2 * 2 ^ N.of_nat (mb_depth a))%N)
  (merged : merge_reveal Release a b = Ret (c, Ok n)),
  exists ta tb ja jb, mb_cross_section a = flatten 0 ta ++ ja /\ pwf (mb_depth a) 0 ta /\
    mb_cross_section b = flatten 0 tb ++ jb /\ pwf (mb_depth b) 0 tb /\
    (block_tree c (pjoin ta tb) \/
     collision_in (pcommit_pre (mb_depth a) (mb_cofactor a) ta ++ pcommit_pre (mb_depth b) (mb_cofactor b) tb)).
Proof.
  intros H a b c n Va Vb Sa Sb Na M.
  destruct (c16_merge_any H Release a b c n M) as (x & Ia & Ib & _ & _ & Dc & Cc & _).
  destruct (proj1 (settled_domain a Va) (ex_intro _ x Ia)) as (ta & Fa & Xa & Wa & Ra).
  destruct (proj1 (settled_domain b Vb) (ex_intro _ x Ib)) as (tb & Fb & Xb & Wb & Rb).
  pose proof (settled_value a ta Fa Va Xa Wa Ra) as Iv. rewrite Ia in Iv. injection Iv as Iv.
  pose proof (settled_value b tb Fb Vb Xb Wb Rb) as Iw. rewrite Ib in Iw. injection Iw as Iw.
  unfold shallow_nodes in Sa, Sb. rewrite Xa in Sa. rewrite Xb in Sb.
  apply Forall_app in Sa as [Sa1 Sa2]. apply Forall_app in Sb as [Sb1 Sb2].
  pose proof (loose_tight _ _ _ Wa Sa1) as Pa. pose proof (loose_tight _ _ _ Wb Sb1) as Pb.
  exists ta, tb, (frontiers Fa), (frontiers Fb). split; [exact Xa|]. split; [exact Pa|]. split; [exact Xb|]. split; [exact Pb|].
  destruct (pcommit_inj (mb_depth a) (mb_depth b) (mb_cofactor a) (mb_cofactor b) ta tb) as [[ED [EC PC]]|K];
    [apply Va|apply Vb|apply Va|apply Vb|congruence| |right; exact K].
  left. rewrite <- ED in Pb, Sb2.
  destruct (narrow_merge a b ta tb _ _ c n Va Vb ED PC Xa Pa Xb Pb Na M) as (r & X & Z & F).
  apply (heights_zero (mb_depth a)) in Z; [|apply F; assumption]. subst r. rewrite app_nil_r in X.
  unfold block_tree. rewrite Dc, Cc. split; [apply Va|]. split; [apply Va|]. split; [exact X|]. eapply pjoin_pwf; eassumption.
Qed.

Lemma c124_honest : forall (H : Hasher) md src rng t b other b' n c
  (valid : valid_source src) (made : try_commit src rng = Ret (Ok t)) (tree_id : tree_commit_id md t = Ret c)
  (validb : valid_block b) (valido : valid_block other) (own_id : block_commit_id Release b = Ret c)
  (narrow : (heights_sum (mb_depth b) (mb_cross_section b) + heights_sum (mb_depth other) (mb_cross_section other) <
             2 ^ 32 + 2 * 2 ^ N.of_nat (mb_depth b))%N)
  (merged : merge_reveal Release b other = Ret (b', Ok n)),
  (forall p m, In (p, m) (known_leaves (mb_cross_section b')) -> In (p, m) (ms_messages src)) \/
  exists tb to jb jo, mb_cross_section b = flatten 0 tb ++ jb /\ mb_cross_section other = flatten 0 to ++ jo /\
    collision_in ((pcommit_pre (mb_depth b) (mb_cofactor b) tb ++ pcommit_pre (mb_depth other) (mb_cofactor other) to) ++ tree_pre t).
Proof.
  intros H md src rng t b other b' n c V E It Vb Vo Ib Na M.
  pose proof (try_commit_good _ _ _ V E) as G. destruct (c04_placement _ _ _ V E) as [_ [_ [Em _]]].
  rewrite (tree_commit_any md t (gt_depth _ G)) in It. injection It as It.
  destruct (c16_merge_any H Release b other b' n M) as (x & Ib' & Io & _). rewrite Ib in Ib'. injection Ib' as <-.
  destruct (proj1 (settled_domain b Vb) (ex_intro _ c Ib)) as (tb & Fb & Xb & Wb & Rb).
  destruct (proj1 (settled_domain other Vo) (ex_intro _ c Io)) as (to & Fo & Xo & Wo & Ro).
  pose proof (settled_value b tb Fb Vb Xb Wb Rb) as Iv. rewrite Ib in Iv. injection Iv as Iv.
  pose proof (settled_value other to Fo Vo Xo Wo Ro) as Iw. rewrite Io in Iw. injection Iw as Iw.
  set (L := (pcommit_pre (mb_depth b) (mb_cofactor b) tb ++ pcommit_pre (mb_depth other) (mb_cofactor other) to) ++ tree_pre t).
  assert (K0 : forall l, collision_in l -> incl l L ->
     exists tb to jb jo, mb_cross_section b = flatten 0 tb ++ jb /\ mb_cross_section other = flatten 0 to ++ jo /\
    collision_in ((pcommit_pre (mb_depth b) (mb_cofactor b) tb ++ pcommit_pre (mb_depth other) (mb_cofactor other) to) ++ tree_pre t)).
  { intros l K Q. exists tb, to, (frontiers Fb), (frontiers Fo). split; [exact Xb|]. split; [exact Xo|]. eapply coll_incl; [exact Q|exact K]. }
  unfold L in K0.
  destruct (pcommit_inj (mb_depth b) (mb_depth other) (mb_cofactor b) (mb_cofactor other) tb to) as [[ED [EC PC]]|K];
    [apply Vb|apply Vo|apply Vb|apply Vo|congruence| |right; eapply K0; [exact K|intros y Y; apply in_or_app; left; exact Y]].
  destruct (honest_pwf (mb_depth b) (mb_cofactor b) tb t G) as [Pb|K];
    [apply Vb|apply Vb|exact Wb|congruence| |right; eapply K0; [exact K|intros y Y; rewrite !in_app_iff in *; tauto]].
  destruct (honest_pwf (mb_depth other) (mb_cofactor other) to t G) as [Po|K];
    [apply Vo|apply Vo|exact Wo|congruence| |right; eapply K0; [exact K|intros y Y; rewrite !in_app_iff in *; tauto]].
  destruct (block_vouches (MBlock (mb_method b) (mb_depth b) (mb_cofactor b) (flatten 0 tb) None) t tb G) as [[_ [_ Lb]]|K];
    cbn [mb_depth mb_cofactor mb_cross_section] in *;
    [apply Vb|apply Vb|reflexivity|exact Wb|congruence| |right; eapply K0; [exact K|intros y Y; rewrite !in_app_iff in *; tauto]].
  destruct (block_vouches (MBlock (mb_method other) (mb_depth other) (mb_cofactor other) (flatten 0 to) None) t to G) as [[_ [_ Lo]]|K];
    cbn [mb_depth mb_cofactor mb_cross_section] in *;
    [apply Vo|apply Vo|reflexivity|exact Wo|congruence| |right; eapply K0; [exact K|intros y Y; rewrite !in_app_iff in *; tauto]].
  left. rewrite <- ED in Po, Lo.
  destruct (narrow_merge b other tb to _ _ b' n Vb Vo ED PC Xb Pb Xo Po Na M) as (r & X & Z & _).
  intros p m J. rewrite X, known_leaves_app, in_app_iff in J.
  destruct J as [J|J]; [|apply heights_no_leaf in Z; rewrite Z in J; destruct J].
  rewrite known_leaves_flatten, <- (pleaves_at_leaves (mb_depth b) 0 0) in J.
  apply in_map_iff in J as [[q e] [Q J]]. cbn in Q. subst e.
  apply (pjoin_leaves_at (mb_depth b) _ _ _ _ _ PC) in J as [J|J]; [apply Lb in J|apply Lo in J]; rewrite <- Em; apply J.
Qed.

(** The bound is met with one unit to spare: five nodes of a tree of depth 31. *)
Lemma c124_wide_refuted : exists a b c n, valid_block a /\ wf_block a /\ valid_block b /\
  shallow_nodes (mb_depth b) (mb_cross_section b) /\
  (heights_sum (mb_depth a) (mb_cross_section a) + heights_sum (mb_depth b) (mb_cross_section b) =
   2 ^ 32 + 2 * 2 ^ N.of_nat (mb_depth a) + 1)%N /\
  (forall (H : Hasher), merge_reveal Release a b = Ret (c, Ok n)) /\ ~ wf_block c.
Proof.
  set (z := b32_fill x00). exists (MBlock Sha256t 31 0 [ConcealedNode 0 z] None).
  exists (MBlock Sha256t 31 0 [ConcealedNode 0 z; ConcealedNode 31 z; ConcealedNode 1 z; ConcealedNode 0 z; ConcealedNode 1 z] None).
  exists (MBlock Sha256t 31 0 [ConcealedNode 0 z; ConcealedNode 1 z; ConcealedNode 0 z; ConcealedNode 1 z] None), 4%N.
  split; [repeat (split || constructor); cbn; lia|]. split; [exists (PConc z); repeat split; cbn; lia|].
  split; [repeat (split || constructor); cbn; lia|]. split; [cbn; repeat constructor; lia|]. split; [vm_compute; reflexivity|].
  split.
  - intros H. set (a := MBlock Sha256t 31 0 [ConcealedNode 0 z] None).
    set (b := MBlock Sha256t 31 0 [ConcealedNode 0 z; ConcealedNode 31 z; ConcealedNode 1 z; ConcealedNode 0 z; ConcealedNode 1 z] None).
    assert (Va : valid_block a) by (repeat (split || constructor); cbn; lia).
    assert (Vb : valid_block b) by (repeat (split || constructor); cbn; lia).
    destruct (fuse_exact a b (PConc z) (PConc z) [] [(31, PConc z); (1, PConc z); (0, PConc z); (1, PConc z)] Va Vb eq_refl eq_refl) as [[_ E]|[N _]];
      [reflexivity|reflexivity|cbn; lia|exact I|reflexivity|cbn; lia| |left; reflexivity|exact E|].
    + cbn [settled rooted edge]. repeat split; intros; try lia; discriminate.
    + exfalso. apply N. split; [|split; reflexivity]. exists [(1, PConc z); (0, PConc z); (1, PConc z)]. split; [reflexivity|].
      cbn [settled rooted edge]. repeat split; intros; try lia; discriminate.
  - intros [t [_ [_ [X P]]]]. cbn [mb_cross_section mb_depth] in X, P.
    pose proof (heights_flatten _ _ _ P) as Q. rewrite <- X in Q. vm_compute in Q. discriminate Q.
Qed.

(** Two nodes below the leaves stand for the hidden leaf, the dropped node hides a third, and the leaf after it is counted instead. *)
Lemma c124_deep_refuted : forall (H : Hasher) p m, exists a b c n,
  valid_block a /\ wf_block a /\ valid_block b /\ length (mb_cross_section b) = 5 /\
  merge_reveal Release a b = Ret (c, Ok n) /\
  known_leaves (mb_cross_section a) = [] /\ known_leaves (mb_cross_section c) = [(p, m)] /\ ~ wf_block c.
Proof.
  intros H p m. set (h := p). set (tb := PBr (PConc h) (PConc h)). set (h0 := phash 1 0 tb).
  set (a := MBlock Sha256t 0 0 [ConcealedNode 0 h0] None).
  set (b := MBlock Sha256t 0 0 [ConcealedNode 1 h; ConcealedNode 1 h; ConcealedNode 2 h; ConcealedNode 1 h; CommitmentLeaf p m] None).
  assert (Va : valid_block a) by (repeat (split || constructor); cbn; lia).
  assert (Vb : valid_block b) by (repeat (split || constructor); cbn; lia).
  assert (S2 : settled 0 1 0 [(2, PConc h); (1, PConc h); (0, PLeaf p m)]) by (cbn; repeat split; intros; try lia; try discriminate).
  assert (S1 : settled 0 1 0 [(1, PConc h); (0, PLeaf p m)]) by (cbn; repeat split; intros; try lia; try discriminate).
  destruct (fuse_exact a b (PConc h0) tb [] [(2, PConc h); (1, PConc h); (0, PLeaf p m)] Va Vb eq_refl eq_refl) as [[_ E]|[N _]].
  - cbn. reflexivity.
  - reflexivity.
  - cbn. lia.
  - exact I.
  - reflexivity.
  - cbn. lia.
  - exact S2.
  - left. reflexivity.
  - do 4 eexists. split; [exact Va|]. split; [exists (PConc h0); repeat split; cbn; lia|]. split; [exact Vb|]. split; [reflexivity|].
    split; [exact E|]. split; [reflexivity|]. split; [reflexivity|].
    intros [t [_ [_ [X P]]]]. cbn [mb_cross_section mb_depth a] in X, P.
    pose proof (flatten_shallow _ _ _ P) as Q. rewrite <- X in Q. inversion Q as [|? ? Q1 _]. cbn in Q1. lia.
  - exfalso. apply N. split; [|split; reflexivity]. exists [(1, PConc h); (0, PLeaf p m)]. split; [reflexivity|exact S1].
Qed.
